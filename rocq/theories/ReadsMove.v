(** A text that is moved in the document is read as before, with its offsets moved (the
    readings of SpecExact.v). *)

From Coq Require Import String.
From Verif Require Import Bytes BytesFacts Ast SpecImage SpecSyntax SpecClear SpecExact SpecMove.
Local Open Scope nat_scope.

Section Carries.
Variable unq : bytes -> option bytes.
Variable f : nat -> nat.

(** [f] takes the [n] bytes at [p] to [p']. *)
Definition carries (p p' n : nat) : Prop := forall a, a <= n -> f (p + a) = p' + a.

Lemma carries_part p p' n k m : carries p p' n -> k + m <= n -> carries (p + k) (p' + k) m.
Proof. intros H L a La. rewrite <- !Nat.add_assoc. apply H. lia. Qed.
Lemma carries_less p p' n m : carries p p' n -> m <= n -> carries p p' m.
Proof. intros H L a La. apply H. lia. Qed.

Lemma at_carried p p' n w : carries p p' n -> length w <= n -> move_span f (at_ p w) = at_ p' w.
Proof.
  intros H L. unfold move_span, at_. cbn [s_start s_end]. rewrite (H (length w) L). pose proof (H 0 ltac:(lia)) as K. rewrite !Nat.add_0_r in K. rewrite K. reflexivity.
Qed.

Ltac len := repeat rewrite app_length; cbn [length]; rewrite ?app_length; lia.

Lemma string_at_carried p p' n w x : carries p p' n -> length w <= n -> string_at unq p w x -> string_at unq p' w (move_string f x).
Proof.
  intros H L (v & Hv & ->). exists v. split; [exact Hv|]. unfold move_string. cbn [ss_span ss_content]. rewrite (at_carried p p' n); auto.
Qed.
Lemma name_carried p p' n w v : carries p p' n -> length w <= n -> move_string f (SpannedString (at_ p w) v) = SpannedString (at_ p' w) v.
Proof. intros H L. unfold move_string. cbn [ss_span ss_content]. rewrite (at_carried p p' n); auto. Qed.

Lemma shell_carried p w s l : shell_reads p w s l -> forall p', carries p p' (length w) -> shell_reads p' w s (map (move_component f) l).
Proof.
  assert (T : forall p p' w n, carries p p' n -> length w <= n -> move_component f (text_part p w) = text_part p' w).
  { intros p0 p' w0 n H L. unfold text_part. cbn [move_component]. rewrite (name_carried p0 p' n); auto. }
  assert (C : forall p p' w n, carries p p' n -> length w <= n -> move_component f (comment_part p w) = comment_part p' w).
  { intros p0 p' w0 n H L. unfold comment_part. cbn [move_component]. unfold move_comment. cbn [sc_span sc_content]. rewrite (at_carried p0 p' n); auto. }
  induction 1 as [p w s H1 H2 H3 H4|p w c w2 s l H1 H2 H3 _ IH|p b t H1 H2|p b t n s H1 H2 H3 H4 H5|p b t n w s l H1 H2 H3 _ IH]; intros p' H; cbn [map].
  - rewrite (T p p' w (length w)) by auto. constructor; assumption.
  - rewrite (T p p' w _ H) by len. constructor; try assumption. apply IH.
    rewrite <- !Nat.add_assoc. eapply carries_part; [exact H|len].
  - rewrite (C (p + length b) (p' + length b) t (length t)); [|eapply carries_part; [exact H|len]|lia]. constructor; assumption.
  - rewrite (C (p + length b) (p' + length b) t (length t)); [|eapply carries_part; [exact H|len]|lia]. constructor; assumption.
  - rewrite (C (p + length b) (p' + length b) t (length t)); [|eapply carries_part; [exact H|len]|lia]. constructor; try assumption.
    apply IH. rewrite <- !Nat.add_assoc. eapply carries_part; [exact H|len].
Qed.

Lemma breakable_carried p p' n w s x : carries p p' n -> length w <= n -> breakable_reads p w s x -> breakable_reads p' w s (move_breakable f x).
Proof.
  intros H L (l & Hl & ->). exists (map (move_component f) l). split; [apply (shell_carried p); [exact Hl|eapply carries_less; eassumption]|].
  unfold move_breakable. cbn [br_span br_components]. rewrite (at_carried p p' n) by auto. reflexivity.
Qed.

Lemma more_strings_carried p w l : more_strings unq p w l -> forall p', carries p p' (length w) -> more_strings unq p' w (map (move_string f) l).
Proof.
  induction 1 as [p|p j g1 k g2 w x w2 l H1 H2 H3 H4 _ IH]; intros p' H; cbn [map]; [constructor|].
  econstructor; try eassumption.
  - eapply string_at_carried; [| |exact H4]; [|apply Nat.le_refl]. rewrite <- !Nat.add_assoc. eapply carries_part; [exact H|len].
  - apply IH. rewrite <- !Nat.add_assoc. eapply carries_part; [exact H|len].
Qed.
Lemma array_carried p p' n w x : carries p p' n -> length w <= n -> array_at unq p w x -> array_at unq p' w (move_array f x).
Proof.
  intros H L A. destruct A as [p k g H1|p k g w x m l comma j g2 text H1 H2 H3 H4 H5 H6 Et]; unfold move_array; cbn [sa_span sa_elements map].
  - rewrite (at_carried p p' n) by auto. econstructor. exact H1.
  - rewrite (at_carried p p' n) by auto. subst text.
    apply (array_strings unq p' k g w (move_string f x) m (map (move_string f) l) comma j g2); try assumption; [| |reflexivity].
    + eapply string_at_carried; [| |exact H3]; [|apply Nat.le_refl]. rewrite <- !Nat.add_assoc. eapply carries_part; [exact H|].
      revert L. len.
    + apply (more_strings_carried _ _ _ H4). rewrite <- !Nat.add_assoc. eapply carries_part; [exact H|]. revert L. len.
Qed.

Lemma flag_carried p p' n w x : carries p p' n -> length w <= n -> flag_at unq p w x -> flag_at unq p' w (move_flag f x).
Proof.
  intros H L (name & value & v & -> & H1 & H2 & H3 & ->). exists name, value, (move_string f v).
  split; [reflexivity|]. split; [exact H1|]. split; [exact H2|]. split.
  - eapply string_at_carried; [| |exact H3]; [|apply Nat.le_refl]. rewrite <- !Nat.add_assoc. eapply carries_part; [exact H|]. revert L. len.
  - unfold move_flag. cbn [fl_span fl_name fl_value]. rewrite (at_carried p p' n) by auto. f_equal.
    apply (name_carried _ _ (length name)); [|lia]. eapply carries_part; [exact H|]. revert L. len.
Qed.

Lemma spaced_carried {A} (at1 : nat -> bytes -> A -> Prop) (mv : A -> A) :
  (forall p p' n w x, carries p p' n -> length w <= n -> at1 p w x -> at1 p' w (mv x)) ->
  forall p w l, spaced at1 p w l -> forall p', carries p p' (length w) -> spaced at1 p' w (map mv l).
Proof.
  intros H1 p w l. induction 1 as [p|p k g w x w2 l Hg Hn Hx _ IH]; intros p' H; cbn [map]; [constructor|].
  econstructor; try eassumption.
  - eapply H1; [| |exact Hx]; [|apply Nat.le_refl]. eapply carries_part; [exact H|len].
  - apply IH. rewrite <- !Nat.add_assoc. eapply carries_part; [exact H|len].
Qed.
Lemma spaced_reads_carried {A} (at1 : nat -> bytes -> bytes -> A -> Prop) (mv : A -> A) :
  (forall p p' n w s x, carries p p' n -> length w <= n -> at1 p w s x -> at1 p' w s (mv x)) ->
  forall p w s l, spaced_reads at1 p w s l -> forall p', carries p p' (length w) -> spaced_reads at1 p' w s (map mv l).
Proof.
  intros H1 p w s l. induction 1 as [p s|p k g w x w2 s l Hg Hn Ho Hx _ IH]; intros p' H; cbn [map]; [constructor|].
  econstructor; try eassumption.
  - eapply H1; [| |exact Hx]; [|apply Nat.le_refl]. eapply carries_part; [exact H|len].
  - apply IH. rewrite <- !Nat.add_assoc. eapply carries_part; [exact H|len].
Qed.

Lemma from_carried p p' n w x : carries p p' n -> length w <= n -> from_at unq p w x -> from_at unq p' w (move_from f x).
Proof.
  intros H L (kw & fl & k & g & img & al & -> & H1 & H2 & H3 & H4 & H5 & H6 & H7 & H8 & H9 & H10).
  exists kw, fl, k, g, img, al. unfold move_from. cbn [from_flags from_image from_image_parsed from_alias from_span].
  split; [reflexivity|]. split; [exact H1|]. split.
  { apply (spaced_carried (flag_at unq) (move_flag f) flag_carried _ _ _ H2). eapply carries_part; [exact H|]. revert L. len. }
  do 3 (split; [assumption|]). split.
  { rewrite H6. apply (name_carried _ _ (length img)); [|lia]. rewrite <- !Nat.add_assoc. eapply carries_part; [exact H|]. revert L. len. }
  do 2 (split; [assumption|]). split; [|rewrite H10; apply (at_carried p p' n); assumption].
  destruct H9 as [[-> ->]|(j & g1 & as_ & k2 & g2 & a & -> & K1 & K2 & K3 & K4 & K5 & K6 & ->)]; [left; split; reflexivity|].
  right. exists j, g1, as_, k2, g2, a. do 7 (split; [first [reflexivity|assumption]|]). cbn [option_map]. f_equal.
  apply (name_carried _ _ (length a)); [|lia]. rewrite <- !Nat.add_assoc. eapply carries_part; [exact H|]. revert L. len.
Qed.

Lemma arg_carried p p' n w s x : carries p p' n -> length w <= n -> arg_reads unq p w s x -> arg_reads unq p' w s (move_arg f x).
Proof.
  intros H L (kw & k & g & name & rest & -> & H1 & H2 & H3 & H4 & H5 & H6 & H7). exists kw, k, g, name, rest.
  unfold move_arg. cbn [arg_name arg_span arg_value]. do 5 (split; [first [reflexivity|assumption]|]). split; [|split].
  - rewrite H5. apply (name_carried _ _ (length name)); [|lia]. rewrite <- !Nat.add_assoc. eapply carries_part; [exact H|]. revert L. len.
  - rewrite H6. apply (at_carried p p' n); assumption.
  - destruct H7 as [[-> ->]|(value & v & -> & K1 & K2 & ->)]; [left; split; reflexivity|]. right. exists value, (move_string f v).
    do 2 (split; [first [reflexivity|assumption]|]). split; [|reflexivity].
    eapply string_at_carried; [| |exact K2]; [|apply Nat.le_refl]. rewrite <- !Nat.add_assoc. eapply carries_part; [exact H|]. revert L. len.
Qed.

Lemma path_carried p p' n w s x : carries p p' n -> length w <= n -> path_reads unq p w s x -> path_reads unq p' w s (move_string f x).
Proof. intros H L ((H1 & H2) & H3). split; [split; [exact H1|eapply string_at_carried; eassumption]|exact H3]. Qed.

Lemma copy_carried p p' n w s x : carries p p' n -> length w <= n -> copy_reads unq p w s x ->
  copy_reads unq p' w s (CopyInstruction (move_span f (copy_span x)) (map (move_flag f) (copy_flags x)) (map (move_string f) (copy_sources x)) (move_string f (copy_destination x))).
Proof.
  intros H L (kw & fl & paths & -> & H1 & H2 & H3 & H4 & H5 & H6). exists kw, fl, paths. cbn [copy_span copy_flags copy_sources copy_destination].
  do 2 (split; [first [reflexivity|assumption]|]). split.
  { apply (spaced_carried (flag_at unq) (move_flag f) flag_carried _ _ _ H2). eapply carries_part; [exact H|]. revert L. len. }
  split; [exact H3|]. split.
  { pose proof (spaced_reads_carried (path_reads unq) (move_string f) path_carried _ _ _ _ H4 (p' + length kw + length fl)) as K.
    rewrite map_app in K. apply K. rewrite <- !Nat.add_assoc. eapply carries_part; [exact H|]. revert L. len. }
  split; [destruct (copy_sources x); [congruence|discriminate]|]. rewrite H6. apply (at_carried p p' n); assumption.
Qed.

Lemma clean_carried p p' n w x : carries p p' n -> length w <= n -> clean_quoted_at unq p w x -> clean_quoted_at unq p' w (move_string f x).
Proof.
  intros H L (u & v & H1 & H2 & H3 & ->). exists u, v. do 3 (split; [assumption|]). apply (name_carried p p' n); assumption.
Qed.
Lemma label_name_carried p p' n w s x : carries p p' n -> length w <= n -> label_name_reads unq p w s x -> label_name_reads unq p' w s (move_string f x).
Proof.
  intros H L [K|(H1 & H2 & H3 & H4)]; [left; eapply clean_carried; eassumption|right]. do 3 (split; [assumption|]). eapply string_at_carried; eassumption.
Qed.
Lemma label_value_carried p p' n w s x : carries p p' n -> length w <= n -> label_value_reads unq p w s x -> label_value_reads unq p' w s (move_string f x).
Proof.
  intros H L [K|(H1 & H2 & H3 & H4)]; [left; eapply clean_carried; eassumption|right]. do 3 (split; [assumption|]). eapply string_at_carried; eassumption.
Qed.
Lemma label_pair_carried p p' n w s x : carries p p' n -> length w <= n -> label_pair_reads unq p w s x -> label_pair_reads unq p' w s (move_label f x).
Proof.
  intros H L (a & v & -> & H1 & H2 & H3). exists a, v. unfold move_label. cbn [lb_span lb_name lb_value]. split; [reflexivity|]. split; [|split].
  - eapply label_name_carried; [exact H| |exact H1]. revert L. len.
  - eapply label_value_carried; [| |exact H2]; [|apply Nat.le_refl]. rewrite <- !Nat.add_assoc. eapply carries_part; [exact H|]. revert L. len.
  - rewrite H3. apply (at_carried p p' n); assumption.
Qed.
Lemma label_carried p p' n w s x : carries p p' n -> length w <= n -> label_reads unq p w s x ->
  label_reads unq p' w s (LabelInstruction (move_span f (label_span x)) (map (move_label f) (label_labels x))).
Proof.
  intros H L (kw & r & -> & H1 & H2 & H3). exists kw, r. cbn [label_span label_labels]. split; [reflexivity|]. split; [exact H1|].
  split; [rewrite H2; apply (at_carried p p' n); assumption|].
  destruct H3 as [(l & (j & g1 & a & k & g2 & v & -> & K1 & K2 & K3 & K4 & K5 & K6 & K7 & K8 & K9) & ->)|(pairs & g & -> & K1 & K2 & K3)].
  - left. exists (move_label f l). split; [|reflexivity]. exists j, g1, a, k, g2, v. unfold move_label. cbn [lb_span lb_name lb_value].
    do 6 (split; [first [reflexivity|assumption]|]). split.
    { eapply label_name_carried; [| |exact K6]; [|apply Nat.le_refl]. rewrite <- !Nat.add_assoc. eapply carries_part; [exact H|]. revert L. len. }
    split; [exact K7|]. split.
    { eapply label_value_carried; [| |exact K8]; [|apply Nat.le_refl]. rewrite <- !Nat.add_assoc. eapply carries_part; [exact H|]. revert L. len. }
    rewrite K9. apply (at_carried _ _ (length (g1 ++ a ++ g2 ++ v))); [|lia]. eapply carries_part; [exact H|]. revert L. len.
  - right. exists pairs, g. do 2 (split; [first [reflexivity|assumption]|]). split; [|exact K3].
    apply (spaced_reads_carried (label_pair_reads unq) (move_label f) label_pair_carried _ _ _ _ K2). eapply carries_part; [exact H|]. revert L. len.
Qed.

Lemma plain_value_carried p p' n w v x : carries p p' n -> length w <= n -> plain_value_at p w v x -> plain_value_at p' w v (move_breakable f x).
Proof.
  intros H L ->. unfold plain_value_at, move_breakable, move_component, move_string. cbn [br_span br_components map ss_span ss_content].
  rewrite (at_carried p p' n) by assumption. reflexivity.
Qed.
Lemma quoted_value_carried p p' n w x : carries p p' n -> length w <= n -> quoted_value_at unq p w x -> quoted_value_at unq p' w (move_breakable f x).
Proof. intros H L (v & H1 & H2 & H3). exists v. do 2 (split; [assumption|]). eapply plain_value_carried; eassumption. Qed.
Lemma env_pair_carried p p' n w s x : carries p p' n -> length w <= n -> env_pair_reads unq p w s x -> env_pair_reads unq p' w s (move_env f x).
Proof.
  intros H L (a & v & -> & H1 & H2 & H3 & H4). exists a, v. unfold move_env. cbn [ev_span ev_key ev_value]. split; [reflexivity|]. split; [exact H1|].
  assert (Hv : carries (p + length a + 1) (p' + length a + 1) (length v)).
  { rewrite <- !Nat.add_assoc. eapply carries_part; [exact H|]. revert L. len. }
  split; [rewrite H2; apply (name_carried p p' n); [exact H|]; revert L; len|]. split; [|rewrite H4; apply (at_carried p p' n); assumption].
  destruct H3 as [K|(K1 & K2 & K3 & K4)]; [left; eapply quoted_value_carried; eauto|right].
  do 3 (split; [assumption|]). eapply plain_value_carried; eauto.
Qed.
Lemma env_carried p p' n w s x : carries p p' n -> length w <= n -> env_reads unq p w s x ->
  env_reads unq p' w s (EnvInstruction (move_span f (env_span x)) (map (move_env f) (env_vars x))).
Proof.
  intros H L (kw & r & -> & H1 & H2 & H3). exists kw, r. cbn [env_span env_vars]. split; [reflexivity|]. split; [exact H1|].
  split; [rewrite H2; apply (at_carried p p' n); assumption|].
  destruct H3 as [(e & (j & g1 & a & k & g2 & v & -> & K1 & K2 & K3 & K4 & K5 & K6 & K7 & K8 & K9) & ->)|(pairs & g & -> & K1 & K2 & K3)].
  - left. exists (move_env f e). split; [|reflexivity]. exists j, g1, a, k, g2, v. unfold move_env. cbn [ev_span ev_key ev_value].
    do 6 (split; [first [reflexivity|assumption]|]).
    assert (Hv : carries (p + length kw + length g1 + length a + length g2) (p' + length kw + length g1 + length a + length g2) (length v)).
    { rewrite <- !Nat.add_assoc. eapply carries_part; [exact H|]. revert L. len. }
    split. { rewrite K6. apply (name_carried _ _ (length a)); [|lia]. rewrite <- !Nat.add_assoc. eapply carries_part; [exact H|]. revert L. len. }
    split; [exact K7|]. split.
    { destruct K8 as [K|(Q1 & Q2)]; [left; eapply quoted_value_carried; eauto|right]. split; [exact Q1|]. eapply breakable_carried; eauto. }
    rewrite K9. apply (at_carried _ _ (length (a ++ g2 ++ v))); [|lia]. rewrite <- !Nat.add_assoc. eapply carries_part; [exact H|]. revert L. len.
  - right. exists pairs, g. do 2 (split; [first [reflexivity|assumption]|]). split; [|exact K3].
    apply (spaced_reads_carried (env_pair_reads unq) (move_env f) env_pair_carried _ _ _ _ K2). eapply carries_part; [exact H|]. revert L. len.
Qed.

Lemma command_carried kwd p p' n w s sp e : carries p p' n -> length w <= n -> command_reads unq kwd p w s sp e ->
  command_reads unq kwd p' w s (move_span f sp) (move_command f e).
Proof.
  intros H L (kw & g & cmd & -> & H1 & H2 & H3 & H4 & H5 & ->). exists kw, g, cmd. do 5 (split; [first [reflexivity|assumption]|]).
  split; [|apply (at_carried p p' n); assumption].
  assert (Hv : carries (p + length kw + length g) (p' + length kw + length g) (length cmd)).
  { rewrite <- !Nat.add_assoc. eapply carries_part; [exact H|]. revert L. len. }
  destruct e as [x|a]; cbn [move_command].
  - destruct H5 as [K1 K2]. split; [exact K1|]. eapply breakable_carried; eauto.
  - eapply array_carried; eauto.
Qed.

Lemma misc_carried p p' n w s x : carries p p' n -> length w <= n -> misc_reads p w s x ->
  misc_reads p' w s (MiscInstruction (move_span f (misc_span x)) (move_string f (misc_name x)) (move_breakable f (misc_arguments x))).
Proof.
  intros H L (name & args & -> & H1 & H2 & H3 & H4 & H5 & H6). exists name, args. cbn [misc_span misc_name misc_arguments].
  do 4 (split; [first [reflexivity|assumption]|]). split; [|split].
  - rewrite H4. apply (name_carried p p' n); [exact H|]. revert L. len.
  - eapply breakable_carried; [| |exact H5]; [|apply Nat.le_refl]. eapply carries_part; [exact H|]. revert L. len.
  - rewrite H6. apply (at_carried p p' n); assumption.
Qed.

Lemma instruction_carried p p' n w s i : carries p p' n -> length w <= n -> instruction_reads unq p w s i ->
  instruction_reads unq p' w s (move_instruction f i).
Proof.
  intros H L R. destruct i as [x|x|x|x|x|x|x|x|x]; cbn [move_instruction instruction_reads run_span run_expr entrypoint_span entrypoint_expr cmd_span cmd_expr] in *.
  - eapply from_carried; eassumption.
  - eapply arg_carried; eassumption.
  - eapply label_carried; eassumption.
  - eapply command_carried; eassumption.
  - eapply command_carried; eassumption.
  - eapply command_carried; eassumption.
  - eapply copy_carried; eassumption.
  - eapply env_carried; eassumption.
  - eapply misc_carried; eassumption.
Qed.

Lemma line_carried p w s l : line_reads unq p w s l -> forall p', carries p p' (length w) -> line_reads unq p' w s (map (move_instruction f) l).
Proof.
  intros [p0 b s0 H1 H2|p0 b t s0 H1 H2 H3|p0 b w0 b2 s0 i H1 H2 H3 H4] p' H; cbn [map]; [constructor; assumption..|].
  constructor; try assumption. eapply instruction_carried; [| |exact H2]; [|apply Nat.le_refl]. eapply carries_part; [exact H|len].
Qed.

Lemma document_carried p w l : document_reads unq p w l -> forall p', carries p p' (length w) -> document_reads unq p' w (map (move_instruction f) l).
Proof.
  induction 1 as [p w l H1|p w n w2 l l2 H1 H2 H3 _ IH]; intros p' H; [constructor; eapply line_carried; eassumption|].
  rewrite map_app. apply reads_more; try assumption.
  - apply (line_carried _ _ _ _ H1). eapply carries_less; [exact H|len].
  - apply IH. rewrite <- !Nat.add_assoc. eapply carries_part; [exact H|len].
Qed.

End Carries.
