(** Where rewording changes nothing but offsets, and splicing one span. *)

From Coq Require Import String Permutation.
From Verif Require Import Bytes BytesFacts Result Ast Splicer Dockerfile
  SpecSplice SplicerFacts SpecClear SpecSyntax SpecMove SpecParts SpecDoc DocFacts ParseFacts SelectFacts PropsParse PropsDoc PropsEdit SpecReword RewordDoc.
Local Open Scope nat_scope.

(** ** Where the result does not change *)

Section Unchanged.
Variables lo hi : nat.
Variable new : bytes.
Notation g := (replacement lo hi (length new)).
Notation away x := (forall y, In y (within x) -> around lo hi (part_span y) = false).

Lemma away_string x : away (string_part x) -> reword_string lo hi new x = move_string g x.
Proof. intros H. unfold reword_string, reword_text. pose proof (H (string_part x) (or_introl eq_refl)) as E. cbn [string_part part_span] in E. rewrite E. reflexivity. Qed.

Lemma away_sub x y : away x -> In y (part_sub x) -> away y.
Proof. intros H Hy z Hz. apply H. destruct x as [s c l]. cbn [within part_sub] in *. right. apply in_flat_map. exists y. auto. Qed.

Lemma away_component c : away (component_part c) -> reword_component lo hi new c = move_component g c.
Proof.
  destruct c as [x|x]; intros H; cbn [reword_component move_component]; f_equal; [apply away_string; exact H|].
  unfold reword_comment, reword_text. pose proof (H (comment_part_of x) (or_introl eq_refl)) as E. cbn [comment_part_of part_span] in E. rewrite E. reflexivity.
Qed.

Lemma map_away {A} (part_of : A -> part) (f h : A -> A) l : (forall x, away (part_of x) -> f x = h x) ->
  (forall y, In y (map part_of l) -> away y) -> map f l = map h l.
Proof. intros H K. apply map_ext_in. intros x Hx. apply H, K, in_map. exact Hx. Qed.

Lemma away_breakable x : away (breakable_part x) -> reword_breakable lo hi new x = move_breakable g x.
Proof.
  intros H. unfold reword_breakable, move_breakable. f_equal. apply (map_away component_part); [apply away_component|].
  intros y Hy. apply (away_sub (breakable_part x)); assumption.
Qed.

Lemma away_command x : away (command_part x) -> reword_command lo hi new x = move_command g x.
Proof.
  destruct x as [x|x]; intros H; cbn [reword_command move_command]; f_equal; [apply away_breakable; exact H|].
  unfold reword_array, move_array. f_equal. apply (map_away string_part); [apply away_string|].
  intros y Hy. apply (away_sub (array_part x)); assumption.
Qed.

Ltac sub H := apply (away_sub _ _ H); cbn [part_sub flag_part label_part var_part instruction_part parts In]; auto.

Lemma away_flag x : away (flag_part x) -> reword_flag lo hi new x = move_flag g x.
Proof. intros H. unfold reword_flag, move_flag. f_equal; apply away_string; sub H. Qed.
Lemma away_label x : away (label_part x) -> reword_label lo hi new x = move_label g x.
Proof. intros H. unfold reword_label, move_label. f_equal; apply away_string; sub H. Qed.
Lemma away_var x : away (var_part x) -> reword_env lo hi new x = move_env g x.
Proof. intros H. unfold reword_env, move_env. f_equal; [apply away_string|apply away_breakable]; sub H. Qed.
Lemma away_maybe o : (forall y, In y (maybe o) -> away y) -> option_map (reword_string lo hi new) o = option_map (move_string g) o.
Proof. destruct o as [x|]; intros H; [|reflexivity]. cbn [option_map]. f_equal. apply away_string, H. left. reflexivity. Qed.
Lemma away_arg x : away (instruction_part (IArg x)) -> reword_arg lo hi new x = move_arg g x.
Proof.
  intros H. unfold reword_arg, move_arg. f_equal; [apply away_string; sub H|apply away_maybe]. intros y Hy. sub H.
Qed.

Lemma away_instruction i : away (instruction_part i) -> reword_instruction lo hi new i = move_instruction g i.
Proof.
  intros H. pose proof (fun y => away_sub _ y H) as K. cbn [part_sub instruction_part] in K.
  destruct i as [x|x|x|x|x|x|x|x|x]; cbn [reword_instruction move_instruction parts] in *; f_equal.
  - unfold reword_from, move_from. f_equal.
    + apply (map_away flag_part); [apply away_flag|]. intros y Hy. apply K. apply in_or_app. auto.
    + apply away_string, K. apply in_or_app. right. left. reflexivity.
    + apply away_maybe. intros y Hy. apply K. apply in_or_app. right. right. exact Hy.
  - apply away_arg. exact H.
  - f_equal. apply (map_away label_part); [apply away_label|exact K].
  - f_equal. apply away_command, K. left. reflexivity.
  - f_equal. apply away_command, K. left. reflexivity.
  - f_equal. apply away_command, K. left. reflexivity.
  - f_equal.
    + apply (map_away flag_part); [apply away_flag|]. intros y Hy. apply K. apply in_or_app. auto.
    + apply (map_away string_part); [apply away_string|]. intros y Hy. apply K. apply in_or_app. right. apply in_or_app. auto.
    + apply away_string, K. apply in_or_app. right. apply in_or_app. right. left. reflexivity.
  - f_equal. apply (map_away var_part); [apply away_var|exact K].
  - f_equal; [apply away_string|apply away_breakable]; apply K; cbn [In]; auto.
Qed.

End Unchanged.

(** ** The places of strings are parts, none of them inside another *)

Lemma selection_app l1 s1 : selection l1 s1 -> forall l2 s2, selection l2 s2 -> selection (l1 ++ l2) (s1 ++ s2).
Proof.
  induction 1 as [|x l sps H IH|x l sps H IH|x l t1 t2 H1 IH1 H2 IH2]; intros l2 s2 K; cbn [app].
  - exact K.
  - apply select_skip, IH, K.
  - apply select_part, IH, K.
  - rewrite <- app_assoc. apply select_inside; [exact H1|apply IH2, K].
Qed.

Lemma selection_one x sps : selection (part_sub x) sps -> selection [x] sps.
Proof. intros H. rewrite <- (app_nil_r sps). apply select_inside; [exact H|constructor]. Qed.

Lemma selection_all {A} (part_of : A -> part) (places : A -> list span) l : (forall x, selection [part_of x] (places x)) ->
  selection (map part_of l) (flat_map places l).
Proof.
  intros H. induction l as [|x l IH]; [constructor|]. cbn [map flat_map]. apply (selection_app [part_of x]); [apply H|exact IH].
Qed.

Lemma strings_selected l : selection (map string_part l) (string_places l).
Proof. induction l as [|x l IH]; [constructor|]. exact (select_part (string_part x) _ _ IH). Qed.

Lemma maybe_selected o : selection (maybe o) (option_places o).
Proof. destruct o as [x|]; [exact (select_part (string_part x) _ _ select_end)|constructor]. Qed.

Lemma flags_selected l : selection (map flag_part l) (flat_map flag_places l).
Proof.
  apply selection_all. intros x. apply selection_one. exact (select_part (string_part (fl_name x)) _ _ (select_part (string_part (fl_value x)) _ _ select_end)).
Qed.

Lemma command_selected x : selection [command_part x] (command_places x).
Proof. destruct x as [x|x]; [apply select_skip; constructor|]. apply selection_one. apply strings_selected. Qed.

Lemma places_selected l : selection (map instruction_part l) (flat_map quotable_places l).
Proof.
  apply selection_all. intros i. apply selection_one. cbn [instruction_part part_sub].
  destruct i as [x|x|x|x|x|x|x|x|x]; cbn [parts quotable_places].
  - apply selection_app; [apply flags_selected|]. exact (select_part (string_part (from_image x)) _ _ (maybe_selected _)).
  - exact (select_part (string_part (arg_name x)) _ _ (maybe_selected _)).
  - apply selection_all. intros y. apply selection_one.
    exact (select_part (string_part (lb_name y)) _ _ (select_part (string_part (lb_value y)) _ _ select_end)).
  - apply command_selected.
  - apply command_selected.
  - apply command_selected.
  - apply selection_app; [apply flags_selected|]. apply selection_app; [apply strings_selected|].
    exact (select_part (string_part (copy_destination x)) _ _ select_end).
  - apply selection_all. intros y. apply selection_one.
    exact (select_part (string_part (ev_key y)) _ _ (select_part (breakable_part (ev_value y)) _ _ select_end)).
  - exact (select_part (string_part (misc_name x)) _ _ (select_skip _ _ _ select_end)).
Qed.

(** ** One splice *)

Lemma splice_alone unq input d sp new : valid_utf8 input = true -> parse unq input = Ok d -> sliceable input sp -> s_start sp < s_end sp ->
  valid_utf8 new = true -> fits input [(sp, new)] ->
  exists st, splice (splicer_from d) sp new = Ok st /\ sp_content st = firstn (s_start sp) input ++ new ++ skipn (s_end sp) input.
Proof.
  intros V E (L1 & L2 & B) Hlt V' Hf. pose proof (parse_content _ _ _ E) as Ec.
  destruct (splice_disjoint input [(sp, new)] [(sp, new)] V) as (st & Es & Et & Eu).
  - cbn [map fst in_order]. repeat split; lia.
  - intros e [<-|[]]. cbn [fst snd]. split; [exact B|exact V'].
  - exact Hf.
  - apply Permutation_refl.
  - exists st. unfold splice_all in Es. cbn [for_each fst snd] in Es. unfold splicer_from. rewrite Ec.
    split; [unfold splicer_from_str in Es; destruct (splice _ _ _); [exact Es|discriminate Es..]|].
    rewrite Et. cbn [replaced]. unfold slice. cbn [skipn]. rewrite Nat.sub_0_r. reflexivity.
Qed.
