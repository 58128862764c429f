(** Clearly written text may be moved. *)

From Coq Require Import String.
From Verif Require Import Bytes BytesFacts Ast SpecImage SpecSyntax SpecClear SpecDoc SpecMove.
Local Open Scope nat_scope.

(** [g] moves the [n] bytes from [p] on as they are. *)
Definition moves (g : nat -> nat) (p n : nat) : Prop :=
  forall q, p <= q -> q <= p + n -> g q + p = q + g p.

Lemma moves_sub g p n p' n' : moves g p n -> p <= p' -> p' + n' <= p + n -> moves g p' n'.
Proof. intros H H1 H2 q Hq1 Hq2. pose proof (H q). pose proof (H p'). lia. Qed.

Lemma moves_add g p n a : moves g p n -> a <= n -> g p + a = g (p + a).
Proof. intros H Ha. pose proof (H (p + a)). lia. Qed.

Section Move.
Variable unq : bytes -> option bytes.
Variable g : nat -> nat.

(** [H : moves g p n] bounds everything *)
Ltac lengths := rewrite ?app_length in *; cbn [length] in *; rewrite ?app_length in *.
Ltac sub H := apply (moves_sub _ _ _ _ _ H); lengths; lia.
Ltac fold_pos H :=
  repeat match goal with |- context [g ?q + ?a] =>
    let M := fresh in assert (M : moves g q a) by (sub H);
    rewrite (moves_add g q a a M (le_n _)); clear M end.

Lemma at_move p w : moves g p (length w) -> move_span g (at_ p w) = at_ (g p) w.
Proof. intros H. unfold move_span, at_. cbn. f_equal. symmetry. apply (moves_add _ _ _ _ H). lia. Qed.

Lemma string_move p w x : moves g p (length w) -> string_at unq p w x -> string_at unq (g p) w (move_string g x).
Proof. intros H (v & Hv & ->). exists v. split; [exact Hv|]. unfold move_string. cbn. rewrite at_move by exact H. reflexivity. Qed.

Lemma plain_move p w : moves g p (length w) -> move_string g (SpannedString (at_ p w) w) = SpannedString (at_ (g p) w) w.
Proof. intros H. unfold move_string. cbn. rewrite at_move by exact H. reflexivity. Qed.

Lemma spaced_move {A} (at1 : nat -> bytes -> A -> Prop) mv p w l :
  (forall p w x, moves g p (length w) -> at1 p w x -> at1 (g p) w (mv x)) ->
  moves g p (length w) -> spaced at1 p w l -> spaced at1 (g p) w (map mv l).
Proof.
  intros H1 H Hl. induction Hl as [|p k gp w x w2 l Hg Hne Hx Hl IH]; [constructor|]. cbn [map].
  econstructor; [exact Hg|exact Hne| |]; fold_pos H.
  - apply H1; [sub H|exact Hx].
  - apply IH. sub H.
Qed.

Lemma flag_move p w x : moves g p (length w) -> clear_flag_at unq p w x -> clear_flag_at unq (g p) w (move_flag g x).
Proof.
  intros H [(name & value & v & -> & Hn & Hv & Hs & ->) He]. split; [|exact He].
  exists name, value, (move_string g v). split; [reflexivity|]. split; [exact Hn|]. split; [exact Hv|]. split.
  - fold_pos H. apply string_move; [sub H|exact Hs].
  - unfold move_flag. cbn [fl_span fl_name fl_value]. rewrite at_move by exact H. fold_pos H.
    rewrite plain_move by (sub H). reflexivity.
Qed.

Lemma path_move p w x : moves g p (length w) -> clear_path_at unq p w x -> clear_path_at unq (g p) w (move_string g x).
Proof. intros H ([Hw Hs] & Hr). split; [|exact Hr]. split; [exact Hw|]. apply string_move; assumption. Qed.

Lemma clean_move p w x : moves g p (length w) -> clean_quoted_at unq p w x -> clean_quoted_at unq (g p) w (move_string g x).
Proof.
  intros H (u & v & H1 & H2 & H3 & ->). exists u, v. repeat (split; [assumption|]). unfold move_string. cbn.
  rewrite at_move by exact H. reflexivity.
Qed.

Lemma label_name_move p w x : moves g p (length w) -> clear_label_name_at unq p w x -> clear_label_name_at unq (g p) w (move_string g x).
Proof.
  intros H [K|(K1 & K2 & K3 & K)]; [left; apply clean_move; assumption|right]. repeat (split; [assumption|]).
  apply string_move; assumption.
Qed.

Lemma label_value_move p w x : moves g p (length w) -> clear_label_value_at unq p w x -> clear_label_value_at unq (g p) w (move_string g x).
Proof.
  intros H [K|(K1 & K)]; [left; apply clean_move; assumption|right]. split; [exact K1|].
  apply string_move; assumption.
Qed.

Lemma label_pair_move p w x : moves g p (length w) -> clear_label_pair_at unq p w x -> clear_label_pair_at unq (g p) w (move_label g x).
Proof.
  intros H (n & v & -> & Hn & Hv & Hs). exists n, v. split; [reflexivity|]. split; [|split].
  - apply label_name_move; [sub H|exact Hn].
  - fold_pos H. apply label_value_move; [sub H|exact Hv].
  - cbn. rewrite Hs. apply at_move. exact H.
Qed.

Lemma plain_value_move p w v x : moves g p (length w) -> plain_value_at p w v x -> plain_value_at (g p) w v (move_breakable g x).
Proof. intros H ->. unfold plain_value_at, move_breakable, move_string. cbn. rewrite at_move by exact H. unfold move_string. cbn. rewrite at_move by exact H. reflexivity. Qed.

Lemma quoted_value_move p w x : moves g p (length w) -> quoted_value_at unq p w x -> quoted_value_at unq (g p) w (move_breakable g x).
Proof. intros H (v & H1 & H2 & H3). exists v. repeat (split; [assumption|]). apply plain_value_move; assumption. Qed.

Lemma env_pair_move p w x : moves g p (length w) -> clear_env_pair_at unq p w x -> clear_env_pair_at unq (g p) w (move_env g x).
Proof.
  intros H (n & v & -> & Hn & Hk & Hv & Hs). exists n, v. split; [reflexivity|]. split; [exact Hn|]. split; [|split].
  - cbn. rewrite Hk. apply plain_move. sub H.
  - fold_pos H. cbn. destruct Hv as [Hv|[Hc Hv]]; [left; apply quoted_value_move; [sub H|exact Hv]|right].
    split; [exact Hc|]. apply plain_value_move; [sub H|exact Hv].
  - cbn. rewrite Hs. apply at_move. exact H.
Qed.

Lemma shell_move p w l : clear_shell_at p w l -> moves g p (length w) -> clear_shell_at (g p) w (map (move_component g) l).
Proof.
  induction 1 as [p w H1 H2 H3|p w c w2 l H1 H2 H3 _ IH|p b t n H1 H2 H3 H4|p b t n w l H1 H2 H3 _ IH]; intros H; cbn [map].
  - cbn [text_part move_component]. rewrite plain_move by exact H. constructor; assumption.
  - cbn [text_part move_component]. rewrite plain_move by (sub H). constructor; try assumption.
    fold_pos H. apply IH. sub H.
  - cbn [comment_part move_component]. unfold move_comment. cbn. rewrite at_move by (sub H).
    replace (g (p + length b)) with (g p + length b) by (fold_pos H; reflexivity). constructor; assumption.
  - cbn [comment_part move_component]. unfold move_comment. cbn. rewrite at_move by (sub H).
    replace (g (p + length b)) with (g p + length b) by (fold_pos H; reflexivity). constructor; try assumption.
    fold_pos H. apply IH. sub H.
Qed.

Lemma breakable_move p w x : moves g p (length w) -> clear_breakable_at p w x -> clear_breakable_at (g p) w (move_breakable g x).
Proof.
  intros H (l & Hl & ->). exists (map (move_component g) l). split; [apply shell_move; assumption|].
  unfold move_breakable. cbn. rewrite at_move by exact H. reflexivity.
Qed.

Lemma more_move p w l : more_strings unq p w l -> moves g p (length w) -> more_strings unq (g p) w (map (move_string g) l).
Proof.
  induction 1 as [|p j g1 k g2 w x w2 l H1 H2 H3 H4 _ IH]; intros H; [constructor|]. cbn [map].
  econstructor; try eassumption; fold_pos H; [apply string_move; [sub H|assumption]|apply IH; sub H].
Qed.

Lemma array_move p w x : moves g p (length w) -> array_at unq p w x -> array_at unq (g p) w (move_array g x).
Proof.
  intros H Ha. destruct Ha as [p k gp Hg|p k gp w x m l comma j g2 text Hg Hw Hx Hm Hc Hg2 E]; unfold move_array; cbn [sa_span sa_elements map].
  - rewrite at_move by exact H. econstructor. exact Hg.
  - rewrite at_move by exact H. rewrite E in H. refine (array_strings unq (g p) k gp w _ m _ comma j g2 text Hg Hw _ _ Hc Hg2 E); fold_pos H.
    + apply string_move; [destruct Hc; subst comma; sub H|exact Hx].
    + apply more_move; [exact Hm|destruct Hc; subst comma; sub H].
Qed.

Lemma alias_move p w x : moves g p (length w) -> alias_at p w x -> alias_at (g p) w (option_map (move_string g) x).
Proof.
  intros H [[-> ->]|(j & g1 & as_ & k & g2 & a & -> & H1 & H2 & H3 & H4 & H5 & H6 & ->)]; [left; auto|right].
  exists j, g1, as_, k, g2, a. repeat (split; [first [reflexivity|assumption]|]). cbn [option_map].
  rewrite plain_move by (sub H). fold_pos H. reflexivity.
Qed.

Lemma from_move p w x : moves g p (length w) -> clear_from_at unq p w x -> clear_from_at unq (g p) w (move_from g x).
Proof.
  intros H (kw & fl & k & gp & img & al & -> & H1 & H2 & H3 & H4 & H5 & H6 & H7 & H8 & H9 & H10 & H11).
  exists kw, fl, k, gp, img, al. split; [reflexivity|]. split; [exact H1|]. cbn [move_from from_flags from_image from_image_parsed from_alias from_span].
  split; [fold_pos H; apply spaced_move; [intros; apply flag_move; assumption|sub H|exact H2]|].
  repeat (split; [assumption|]). split; [rewrite H7, plain_move by (sub H); fold_pos H; reflexivity|].
  repeat (split; [assumption|]). split; [fold_pos H; apply alias_move; [sub H|exact H10]|].
  rewrite H11. apply at_move. exact H.
Qed.

Lemma arg_move p w x : moves g p (length w) -> clear_arg_at unq p w x -> clear_arg_at unq (g p) w (move_arg g x).
Proof.
  intros H (kw & k & gp & name & rest & -> & H1 & H2 & H3 & H4 & H5 & H6 & H7).
  exists kw, k, gp, name, rest. cbn [move_arg arg_name arg_span arg_value]. repeat (split; [first [reflexivity|assumption]|]).
  split; [rewrite H5, plain_move by (sub H); fold_pos H; reflexivity|]. split; [rewrite H6; apply at_move; exact H|].
  destruct H7 as [[-> ->]|(value & v & -> & Hq & Hs & ->)]; [left; auto|right].
  exists value, (move_string g v). split; [reflexivity|]. split; [exact Hq|]. split; [|reflexivity].
  fold_pos H. apply string_move; [sub H|exact Hs].
Qed.

Lemma closed_move p w i : moves g p (length w) -> clear_closed_at unq p w i -> clear_closed_at unq (g p) w (move_instruction g i).
Proof.
  assert (E : forall k p w sp e, moves g p (length w) -> clear_exec_at unq k p w sp e ->
    clear_exec_at unq k (g p) w (move_span g sp) (move_command g e)).
  { clear. intros k p w sp e H (kw & gp & cmd & a & -> & H1 & H2 & H3 & H4 & -> & ->).
    exists kw, gp, cmd, (move_array g a). repeat (split; [first [reflexivity|assumption]|]).
    split; [fold_pos H; apply array_move; [sub H|exact H4]|]. split; [reflexivity|]. apply at_move. exact H. }
  intros H. destruct i as [x|x|x|x|x|x|x|x|x]; cbn [clear_closed_at move_instruction run_span run_expr entrypoint_span entrypoint_expr cmd_span cmd_expr].
  - apply from_move; exact H.
  - apply arg_move; exact H.
  - intros (kw & j & g1 & n & k & c & g2 & v & lb & -> & H1 & H2 & H3 & H4 & H5 & H6 & H7 & H8 & H9 & ->).
    exists kw, j, g1, n, k, c, g2, v, (move_label g lb). repeat (split; [first [reflexivity|assumption]|]).
    split; [fold_pos H; apply label_name_move; [sub H|exact H6]|]. split; [exact H7|].
    split; [fold_pos H; apply label_value_move; [sub H|exact H8]|].
    split; [cbn [move_label lb_span]; rewrite H9, at_move by (sub H); fold_pos H; reflexivity|].
    cbn [label_span label_labels map]. rewrite at_move by exact H. reflexivity.
  - apply E; exact H.
  - apply E; exact H.
  - apply E; exact H.
  - intros (kw & fl & paths & -> & H1 & H2 & H3 & H4 & H5). exists kw, fl, paths.
    cbn [copy_flags copy_sources copy_destination copy_span]. split; [reflexivity|]. split; [exact H1|].
    split; [fold_pos H; apply spaced_move; [intros; apply flag_move; assumption|sub H|exact H2]|].
    split; [fold_pos H; change [move_string g (copy_destination x)] with (map (move_string g) [copy_destination x]);
      rewrite <- map_app; apply spaced_move; [intros; apply path_move; assumption|sub H|exact H3]|].
    split; [destruct (copy_sources x); [congruence|discriminate]|]. rewrite H5. apply at_move. exact H.
  - intros (kw & j & g1 & n & k & g2 & v & e & -> & H1 & H2 & H3 & H4 & H5 & H6 & H7 & H8 & H9 & ->).
    exists kw, j, g1, n, k, g2, v, (move_env g e). repeat (split; [first [reflexivity|assumption]|]).
    cbn [move_env ev_key ev_value ev_span].
    split; [rewrite H7, plain_move by (sub H); fold_pos H; reflexivity|].
    split; [fold_pos H; apply quoted_value_move; [sub H|exact H8]|].
    split; [rewrite H9, at_move by (sub H); fold_pos H; reflexivity|].
    cbn [env_span env_vars map]. rewrite at_move by exact H. reflexivity.
  - auto.
Qed.

Lemma open_move p w i : moves g p (length w) -> clear_open_at unq p w i -> clear_open_at unq (g p) w (move_instruction g i).
Proof.
  assert (E : forall k p w sp e, moves g p (length w) -> clear_command_at k p w sp e ->
    clear_command_at k (g p) w (move_span g sp) (move_command g e)).
  { clear. intros k p w sp e H (kw & gp & cmd & s & -> & H1 & H2 & H3 & H4 & H5 & H6 & -> & ->).
    exists kw, gp, cmd, (move_breakable g s). repeat (split; [first [reflexivity|assumption]|]).
    split; [fold_pos H; apply breakable_move; [sub H|exact H6]|]. split; [reflexivity|]. apply at_move. exact H. }
  intros H. destruct i as [x|x|x|x|x|x|x|x|x]; cbn [clear_open_at move_instruction run_span run_expr entrypoint_span entrypoint_expr cmd_span cmd_expr]; auto.
  - intros (kw & pairs & b & -> & H1 & H2 & H3 & H4 & H5). exists kw, pairs, b. cbn [label_span label_labels].
    split; [reflexivity|]. split; [exact H1|]. split; [rewrite H2; apply at_move; exact H|].
    split; [fold_pos H; apply spaced_move; [intros; apply label_pair_move; assumption|sub H|exact H3]|]. auto.
  - intros [(kw & pairs & b & -> & H1 & H2 & H3 & H4 & H5)|
      (kw & j & g1 & n & k & g2 & v & e & -> & H1 & H2 & H3 & H4 & H5 & H6 & H7 & H8 & H9 & H10 & H11 & ->)]; [left|right].
    + exists kw, pairs, b. cbn [env_span env_vars].
      split; [reflexivity|]. split; [exact H1|]. split; [rewrite H2; apply at_move; exact H|].
      split; [fold_pos H; apply spaced_move; [intros; apply env_pair_move; assumption|sub H|exact H3]|]. auto.
    + exists kw, j, g1, n, k, g2, v, (move_env g e). repeat (split; [first [reflexivity|assumption]|]).
      cbn [move_env ev_key ev_value ev_span].
      split; [rewrite H7, plain_move by (sub H); fold_pos H; reflexivity|]. split; [exact H8|]. split; [exact H9|].
      split; [fold_pos H; apply breakable_move; [sub H|exact H10]|].
      split; [rewrite H11, at_move by (sub H); fold_pos H; reflexivity|].
      cbn [env_span env_vars map]. rewrite at_move by exact H. reflexivity.
  - intros (name & args & -> & H1 & H2 & H3 & H4 & H5 & H6 & H7). exists name, args.
    cbn [misc_name misc_arguments misc_span]. repeat (split; [first [reflexivity|assumption]|]).
    split; [rewrite H5; apply plain_move; sub H|]. split; [fold_pos H; apply breakable_move; [sub H|exact H6]|].
    rewrite H7. apply at_move. exact H.
Qed.

Lemma line_move p w l : moves g p (length w) -> clear_line_at unq p w l -> clear_line_at unq (g p) w (map (move_instruction g) l).
Proof.
  intros H Hl. destruct Hl as [p b Hb|p b t Hb Ht|p b w b2 i Hb Hi Hb2|p b w i Hb Hi]; cbn [map].
  - constructor; assumption.
  - constructor; assumption.
  - constructor; try assumption. fold_pos H. apply closed_move; [sub H|exact Hi].
  - apply clear_open; try assumption. fold_pos H. apply open_move; [sub H|exact Hi].
Qed.

Lemma document_move p w l : clear_document_at unq p w l -> moves g p (length w) ->
  clear_document_at unq (g p) w (map (move_instruction g) l).
Proof.
  induction 1 as [p w l Hl|p w n w2 l l2 Hl Hn Hd IH]; intros H.
  - constructor. apply line_move; assumption.
  - rewrite map_app. apply clear_more; [apply line_move; [sub H|exact Hl]|exact Hn|].
    fold_pos H. apply IH. sub H.
Qed.

End Move.

Lemma numbered_move g n l : numbered n (map (move_instruction g) l) = map (move_instruction g) (numbered n l).
Proof. revert n. induction l as [|i l IH]; intros n; [reflexivity|]. destruct i; cbn; rewrite IH; reflexivity. Qed.
