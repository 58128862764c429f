(** The choice of the instruction, lines and documents, from readings to runs of the grammar: see SpecExact.v. *)

From Coq Require Import String.
From Verif Require Import Bytes BytesFacts Grammar Peg Result Ast Splicer Image Convert ImageFacts Dockerfile SpecDoc DocFacts
  PegFacts SpecImage SpecSyntax SpecClear SpecExact PegRules PegTokens PegQuoted Sound SoundRules SoundInstr SoundDoc
  Forward Forward2 Forward3 ListFacts Forward4 Forward5 Idle Exact Exact2 Exact3 Exact4 Exact5 Exact6 Exact7.
Local Open Scope nat_scope.


Lemma last_gap_no_letter g s : last_gap g -> g <> [] -> no_letter (g ++ s).
Proof.
  intros [[k Hg]|(k & g1 & c & j & l & b & t & -> & Hg & Hc & _)] Hne; [apply (gap_no_letter k); assumption|].
  destruct g1 as [|x g1].
  - destruct Hc as (b1 & n & -> & _). reflexivity.
  - rewrite <- app_assoc. apply (gap_no_letter k); [exact Hg|discriminate].
Qed.

Lemma gap_before_no_letter g t s : gap_before g t -> g <> [] -> no_letter (g ++ s).
Proof.
  intros [[[k Hg]|[_ Hg]] _] Hne; [apply (gap_no_letter k); assumption|apply last_gap_no_letter; assumption].
Qed.

Lemma spaced_reads_no_letter {A} (at1 : nat -> bytes -> bytes -> A -> Prop) p w t l s :
  spaced_reads at1 p w t l -> no_letter s -> no_letter (w ++ s).
Proof.
  intros H Hs. destruct H as [|p k g w x w2 t l Hg Hne Ho Hx Hl]; [exact Hs|]. rewrite <- app_assoc.
  apply (gap_no_letter k); assumption.
Qed.

Lemma spaced_reads_no_letter_ne {A} (at1 : nat -> bytes -> bytes -> A -> Prop) p w t l s :
  spaced_reads at1 p w t l -> l <> [] -> no_letter (w ++ s).
Proof.
  intros H Hl. destruct H as [|p k g w x w2 t l Hg Hne Ho Hx H]; [congruence|]. rewrite <- app_assoc.
  apply (gap_no_letter k); assumption.
Qed.

Lemma pairs_no_letter {A} (at1 : nat -> bytes -> bytes -> A -> Prop) p pairs t l g s :
  spaced_reads at1 p pairs t l -> gap_before g s -> pairs ++ g <> [] -> no_letter (pairs ++ g ++ s).
Proof.
  intros H Hg Hne. destruct g as [|c g].
  - rewrite app_nil_r in Hne. cbn [app]. destruct H; [congruence|]. rewrite <- app_assoc. apply (gap_no_letter k); assumption.
  - apply (spaced_reads_no_letter at1 p pairs t l); [exact H|]. apply (gap_before_no_letter _ _ _ Hg). discriminate.
Qed.

Lemma closed_no_letter s : closed_end s -> no_letter s.
Proof. intros Hs. apply (closed_class is_alpha); [exact Hs|apply alpha_solid]. Qed.

Section Doc.
Variable unq : bytes -> option bytes.
Variable src : bytes.
Notation pos := (Sound.pos src).
Notation gives := (gives unq src).
Notation adds := (adds unq src).

Ltac finish_step k r t Hrun Ht :=
  exists t; split;
  [ rewrite <- ?app_assoc in *; eapply (step_keyword k r);
    [unfold keyword_rules; cbn [In]; repeat (first [left; reflexivity|right])|eassumption| |eassumption|exact Hrun]
  | unfold gives; rewrite Ht; split; [discriminate|split; [discriminate|]] ].

Lemma step_reads_fwd p w i s : instruction_reads unq p w s i -> closed_end s -> valid_utf8 (w ++ s) = true -> pos p (w ++ s) ->
  exists t, run ctx0 (Call R_step) p (w ++ s) = Done (p + length w) s [t] /\ gives t i.
Proof.
  intros H Hs Hv Hp. destruct i as [x|x|x|x|x|x|x|x|x]; cbn [instruction_reads] in H.
  - pose proof (from_reads_fwd unq src p w x s H Hs Hv Hp) as (t & Hrun & Ht & Ho).
    destruct H as (kw & fl & k & g & img & al & -> & Hkw & Hfl & Hg & Hne & _).
    finish_step "from"%string R_from t Hrun Ht.
    + eapply spaced_no_letter; [exact Hfl|]. apply (gap_no_letter k); assumption.
    + exists (set_index x 0). split; [|reflexivity]. unfold instruction_of. rewrite Ht, Ho. reflexivity.
  - pose proof (arg_reads_fwd unq src p w x s H Hs Hv Hp) as (t & Hrun & Ht & Ho).
    destruct H as (kw & k & g & name & rest & -> & Hkw & Hg & Hne & _).
    finish_step "arg"%string R_arg t Hrun Ht; [apply (gap_no_letter k); assumption|exact Ho].
  - pose proof (label_reads_fwd unq src p w x s H Hs Hv Hp) as (t & Hrun & Ht & Ho).
    destruct H as (kw & r & -> & Hkw & _ & H).
    finish_step "label"%string R_label t Hrun Ht; [|exact Ho].
    destruct H as [(l & (j & g1 & n & k & g2 & v & -> & Hg & Hne & _) & _)|(pairs & g & -> & Hne & Hpairs & Hg)]; rewrite <- ?app_assoc.
    + apply (gap_no_letter j); assumption.
    + eapply pairs_no_letter; eassumption.
  - pose proof (run_reads_fwd unq src p w x s H Hv Hp) as (t & Hrun & Ht & Ho).
    destruct H as (kw & g & cmd & -> & Hkw & Hg & Hne & _).
    finish_step "run"%string R_run t Hrun Ht; [apply (gap_no_letter 0); assumption|exact Ho].
  - pose proof (entrypoint_reads_fwd unq src p w x s H Hv Hp) as (t & Hrun & Ht & Ho).
    destruct H as (kw & g & cmd & -> & Hkw & Hg & Hne & _).
    finish_step "entrypoint"%string R_entrypoint t Hrun Ht; [apply (gap_no_letter 0); assumption|exact Ho].
  - pose proof (cmd_reads_fwd unq src p w x s H Hv Hp) as (t & Hrun & Ht & Ho).
    destruct H as (kw & g & cmd & -> & Hkw & Hg & Hne & _).
    finish_step "cmd"%string R_cmd t Hrun Ht; [apply (gap_no_letter 0); assumption|exact Ho].
  - pose proof (copy_reads_fwd unq src p w x s H Hs Hv Hp) as (t & Hrun & Ht & Ho).
    destruct H as (kw & fl & paths & -> & Hkw & Hfl & _ & Hpa & _).
    finish_step "copy"%string R_copy t Hrun Ht; [|exact Ho]. eapply spaced_no_letter; [exact Hfl|].
    eapply spaced_reads_no_letter_ne; [exact Hpa|]. destruct (copy_sources x); discriminate.
  - pose proof (env_reads_fwd unq src p w x s H Hs Hv Hp) as (t & Hrun & Ht & Ho).
    destruct H as (kw & r & -> & Hkw & _ & H).
    finish_step "env"%string R_env t Hrun Ht; [|exact Ho].
    destruct H as [(l & (j & g1 & n & k & g2 & v & -> & Hg & Hne & _) & _)|(pairs & g & -> & Hne & Hpairs & Hg)]; rewrite <- ?app_assoc.
    + apply (gap_no_letter j); assumption.
    + eapply pairs_no_letter; eassumption.
  - pose proof (misc_reads_fwd unq src p w x s H Hv Hp) as (t & Hrun & Ht & Ho).
    destruct H as (name & args & -> & Hl & Hh & Hpass & _). exists t. split.
    + rewrite <- app_assoc in *. apply step_others; try assumption.
      * destruct args as [|c args]; [|exact Hh]. apply closed_no_letter. exact Hs.
      * rewrite (Forward3.class_valid _ _ _ alpha_ascii (proj2 Hl)) in Hv. exact Hv.
    + unfold Forward5.gives. rewrite Ht. split; [discriminate|]. split; [discriminate|exact Ho].
Qed.

Ltac kw_head := rewrite <- ?app_assoc; eapply keyword_head; [eassumption|discriminate|repeat constructor].

Lemma reads_head_letter p w i t s : instruction_reads unq p w t i ->
  match w ++ s with x :: _ => is_alpha x = true | [] => False end.
Proof.
  intros H. destruct i as [x|x|x|x|x|x|x|x|x]; cbn [instruction_reads] in H.
  - destruct H as (kw & fl & k & g & img & al & -> & Hkw & _). kw_head.
  - destruct H as (kw & k & g & name & rest & -> & Hkw & _). kw_head.
  - destruct H as (kw & r & -> & Hkw & _). kw_head.
  - destruct H as (kw & g & cmd & -> & Hkw & _). kw_head.
  - destruct H as (kw & g & cmd & -> & Hkw & _). kw_head.
  - destruct H as (kw & g & cmd & -> & Hkw & _). kw_head.
  - destruct H as (kw & fl & paths & -> & Hkw & _). kw_head.
  - destruct H as (kw & r & -> & Hkw & _). kw_head.
  - destruct H as (name & args & -> & [Hne Hl] & _). destruct Hl as [|x0 name Hx Hl]; [congruence|]. exact Hx.
Qed.

Lemma line_reads_fwd p w l s : line_reads unq p w s l -> valid_utf8 (w ++ s) = true -> pos p (w ++ s) ->
  exists f, run ctx0 (Call R_meta_step) p (w ++ s) = Done (p + length w) s f /\ adds f l.
Proof.
  intros H Hv Hp.
  assert (Hs : at_line_end s) by (apply ends_end; destruct H; assumption).
  assert (Hend : run ctx0 (Rep ws) (p + length w) s = Done (p + length w) s []).
  { rewrite <- (app_nil_l s). rewrite blanks_fwd; [cbn [length app]; f_equal; lia|constructor|apply line_end_not_blank; exact Hs]. }
  rewrite run_call. change (snd (grammar R_meta_step)) with
    (Seq (Rep ws) (Seq (Opt (Alt (Call R_step) comment)) (Rep ws))).
  change (fst (grammar R_meta_step)) with Silent. cbn [rule_inner rule_outer rule_tokens].
  destruct H as [p b s Hb _|p b t s Hb Ht _|p b w b2 s i Hb Hi Hb2 _]; rewrite <- ?app_assoc in *;
    rewrite run_seq by reflexivity; (rewrite valid_blanks in Hv by exact Hb).
  - rewrite blanks_fwd; [|exact Hb|apply line_end_not_blank; exact Hs].
    rewrite run_seq by reflexivity. rewrite run_opt by reflexivity. rewrite run_alt by reflexivity.
    rewrite step_fails; [|apply line_end_no_letter; exact Hs|exact Hv].
    rewrite no_letter_comment_fails by assumption. rewrite Hend. exists []. split; [reflexivity|].
    apply adds_nil. reflexivity.
  - rewrite blanks_fwd; [|exact Hb|destruct Ht as (u & -> & _); reflexivity].
    rewrite run_seq by reflexivity. rewrite run_opt by reflexivity. rewrite run_alt by reflexivity.
    rewrite step_fails; [|apply comment_no_letter; exact Ht|exact Hv].
    rewrite comment_fwd by assumption. rewrite app_length, Nat.add_assoc in Hend. rewrite Hend.
    eexists. split; [rewrite app_length, Nat.add_assoc; reflexivity|]. cbn [app]. rewrite app_nil_r. apply adds_comment.
  - assert (Hp1 : pos (p + length b) (w ++ b2 ++ s)) by (apply pos_app; exact Hp).
    rewrite blanks_fwd; [|exact Hb|apply letter_head_blank, (reads_head_letter _ _ _ _ _ Hi)].
    rewrite run_seq by reflexivity. rewrite run_opt by reflexivity. rewrite run_alt by reflexivity.
    destruct (step_reads_fwd _ _ _ (b2 ++ s) Hi) as (t & Hrun & Hg); [exists b2, s; auto|exact Hv|exact Hp1|].
    rewrite Hrun. rewrite blanks_fwd; [|exact Hb2|apply line_end_not_blank; exact Hs].
    eexists. split; [rewrite !app_length, !Nat.add_assoc; reflexivity|]. cbn [app]. apply adds_gives. exact Hg.
Qed.

Lemma document_reads_fwd p w l : document_reads unq p w l -> valid_utf8 w = true -> pos p w ->
  exists q s f1 f2, run ctx0 (Call R_meta_step) p w = Done q s f1 /\
    run ctx0 more_lines q s = Done (p + length w) [] f2 /\ adds (f1 ++ f2) l.
Proof.
  intros H. induction H as [p w l H|p w n w2 l l2 H Hn Hcr H2 IH]; intros Hv Hp.
  - destruct (line_reads_fwd p w l [] H) as (f & Hrun & Ha); [rewrite app_nil_r; exact Hv|rewrite app_nil_r; exact Hp|].
    rewrite app_nil_r in Hrun. do 4 eexists. split; [exact Hrun|]. split.
    + unfold more_lines. rewrite run_rep by reflexivity. rewrite run_seq by reflexivity. rewrite run_newline.
      cbn [strip_newline]. reflexivity.
    + rewrite app_nil_r. exact Ha.
  - destruct (line_reads_fwd p w l (n ++ w2) H Hv Hp) as (f & Hrun & Ha).
    assert (Hv2 : valid_utf8 (n ++ w2) = true).
    { pose proof (run_valid _ _ _ _ _ _ _ Hrun Hv eq_refl) as K. exact K. }
    assert (Hp3 : pos (p + length w + length n) w2) by (apply pos_app, pos_app; exact Hp).
    rewrite valid_newline in Hv2 by exact Hn.
    destruct (IH Hv2 Hp3) as (q & s & f1 & f2 & R1 & R2 & Ha2).
    do 4 eexists. split; [exact Hrun|]. split; [|apply adds_app; [exact Ha|exact Ha2]].
    unfold more_lines in *. rewrite run_rep by reflexivity.
    rewrite run_seq by reflexivity. rewrite newline_fwd by assumption. rewrite R1, R2. cbn [app].
    f_equal. rewrite !app_length. lia.
Qed.
End Doc.

Theorem reading_parses unq input l : valid_utf8 input = true -> reading unq input l ->
  exists d, parse unq input = Ok d /\ d_content d = input /\ d_instructions d = numbered 0 l.
Proof.
  intros Hv H.
  destruct (document_reads_fwd unq input 0 input l H Hv) as (q & s & f1 & f2 & R1 & R2 & Ha); [reflexivity|].
  destruct (Ha (DocState [] [] false 0)) as (st & E & I & _).
  exists (Dockerfile input (ds_global_args st) (ds_instructions st)).
  split; [|split; [reflexivity|cbn [d_instructions]; rewrite I; reflexivity]].
  assert (R : run ctx0 (Call R_dockerfile) 0 input =
    Done (length input) [] [Node R_dockerfile 0 (length input) (f1 ++ f2 ++ [Node R_EOI (length input) (length input) []])]).
  { rewrite run_call. change (snd (grammar R_dockerfile)) with
      (Seq Soi (Seq (Call R_meta_step) (Seq more_lines (Call R_EOI)))).
    change (fst (grammar R_dockerfile)) with Normal. cbn [rule_inner rule_outer].
    rewrite run_seq by reflexivity. rewrite run_soi. cbn [Nat.eqb]. rewrite run_seq by reflexivity. rewrite R1.
    rewrite run_seq by reflexivity. rewrite R2. rewrite run_call. change (snd (grammar R_EOI)) with EndOfInput.
    rewrite run_eoi. cbn [app Nat.add]. reflexivity. }
  unfold parse. rewrite pest_parse_run, R. cbn [t_children].
  rewrite app_assoc, for_each_app, E. cbn. reflexivity.
Qed.
