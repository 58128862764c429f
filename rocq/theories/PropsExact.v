(** The documents that are accepted and what they mean, exactly (C69).  How a document is
    read is defined in SpecExact.v; [unq] stands for the unquoting function of the enquote
    crate. *)

From Coq Require Import String.
From Verif Require Import Bytes BytesFacts Grammar Peg Result Ast Image Convert Dockerfile Enquote
  SpecImage SpecDoc DocFacts SpecSyntax SpecClear SpecExact PropsDoc PropsParse PropsComplete Forward5 Exact7 Exact8 Exact9.
Local Open Scope nat_scope.

(** ** C69 *)

(** A text is accepted if and only if it can be read. *)
Theorem C69_accepted unq input : valid_utf8 input = true ->
  ((exists d, parse unq input = Ok d) <-> exists l, reading unq input l).
Proof.
  intros Hv. split.
  - intros (d & H). exists (d_instructions d). apply accepted_exact; assumption.
  - intros (l & H). destruct (reading_parses unq input l Hv H) as (d & E & _). exists d. exact E.
Qed.

(** The result is the reading: the text itself, its instructions with the FROM instructions
    numbered from 0, and the ARG instructions before the first FROM. *)
Theorem C69_exact unq input d : valid_utf8 input = true ->
  (parse unq input = Ok d <->
   d_content d = input /\
   (exists l, reading unq input l /\ d_instructions d = numbered 0 l) /\
   exists pre, before_first_from (d_instructions d) pre /\ d_global_args d = args_among pre).
Proof.
  intros Hv. split.
  - intros H. pose proof (accepted_exact unq input d Hv H) as R.
    destruct (reading_parses unq input _ Hv R) as (d2 & E & Ec & El). assert (d2 = d) by congruence. subst d2.
    split; [exact Ec|]. split; [exists (d_instructions d); auto|apply (parse_global_args _ _ _ H)].
  - intros (Ec & (l & R & El) & pre & Hpre & Ea). destruct (reading_parses unq input l Hv R) as (d2 & E & Ec2 & El2).
    destruct (parse_global_args _ _ _ E) as (pre2 & Hpre2 & Ea2). rewrite E. f_equal.
    assert (EL : d_instructions d2 = d_instructions d) by congruence.
    rewrite EL in Hpre2. pose proof (before_first_from_fun _ _ _ Hpre Hpre2) as <-.
    destruct d as [c a i], d2 as [c2 a2 i2]. cbn in *. congruence.
Qed.

(** There is one reading, up to the numbers of FROM. *)
Theorem C69_one_reading unq input l1 l2 : valid_utf8 input = true -> reading unq input l1 -> reading unq input l2 ->
  numbered 0 l1 = numbered 0 l2.
Proof.
  intros Hv H1 H2. destruct (reading_parses unq input l1 Hv H1) as (d & E & _ & <-).
  destruct (reading_parses unq input l2 Hv H2) as (d2 & E2 & _ & <-). congruence.
Qed.

(** ** C11 *)

(** Which instructions are reported as Misc: exactly those whose name is no keyword, or a
    keyword whose syntax does not apply to the text that follows ([passed_over] in
    SpecExact.v). *)
Theorem C11_exact unq input d i : valid_utf8 input = true -> parse unq input = Ok d -> In i (d_instructions d) ->
  exists pre name rest, input = pre ++ name ++ rest /\ s_start (instruction_span i) = length pre /\
    letters name /\ (match rest with c :: _ => is_alpha c = false | [] => True end) /\
    (forall k, keyword_of i = Some k -> keyword k name) /\
    forall k, keyword k name -> ((exists m, i = IMisc m) <-> passed_over k rest).
Proof.
  intros Hv H Hi. destruct (parsed_variant unq input d i Hv H Hi) as (pre & name & rest & E & Hs & Hl & Hn & Hk & Hm).
  exists pre, name, rest. repeat (split; [assumption|]). intros k K. symmetry. apply Hm. exact K.
Qed.

Section Examples.
Notation unq := enquote_unquote.

Lemma over_simple g s : (match s with c :: _ => c <> BSLASH /\ is_blank c = false | [] => True end) ->
  existsb is_newline_byte g = false -> gap_over g s.
Proof.
  intros H Hg. split; [destruct s; [intros (c & t & E & b & n & -> & _); discriminate|intros (c & t & E & b & nl & -> & _); cbn in E; injection E as E _; tauto]|].
  destruct s as [|c s]; [exact I|]. split; [apply H|]. intros (x & Hx & Hn). exfalso. apply not_true_iff_false in Hg. apply Hg.
  apply existsb_exists. exists x. auto.
Qed.

Definition small : bytes := lines ["ARG a=b"; " # c"; "run x "]%string.

(** A reading put together by hand *)
Example C69_small_reading : exists l, reading unq small l /\ length l = 2.
Proof.
  eexists. split; [|shelve]. unfold reading.
  change small with (bs "ARG a=b" ++ [LF] ++ bs " # c" ++ [LF] ++ bs "run x " ++ [LF] ++ []).
  eapply reads_more; [|constructor|discriminate|].
  { eapply (reads_instruction unq 0 [] (bs "ARG a=b") [] _ (IArg (ArgInstruction _ _ _))); [constructor| |constructor|reflexivity].
    exists (bs "ARG"), 0, (bs " "), (bs "a"), (bs "=b").
    do 4 (split; [easy_text|]). split; [exists 97%N, []; split; [reflexivity|]; easy_text|]. do 2 (split; [reflexivity|]). right.
    exists (bs "b"). eexists. split; [easy_text|]. split.
    - right. split; [split; easy_text|]. split.
      + intros (w & t & E & q & c & [-> | ->] & -> & _); discriminate E.
      + split; [left; reflexivity|]. intros (u & b & n & t & E & _). destruct u as [|? [|]]; discriminate.
    - split; [|reflexivity]. apply string_plain. reflexivity. }
  eapply reads_more; [|constructor|discriminate|].
  { apply (reads_comment_only unq _ (bs " ") (bs "# c")); [easy_text|apply comment_simple; reflexivity|reflexivity]. }
  eapply reads_more; [|constructor|discriminate|].
  { eapply (reads_instruction unq _ [] (bs "run x ") [] _ (IRun (RunInstruction _ (Shell _)))); [constructor| |constructor|reflexivity].
    exists (bs "run"), (bs " "), (bs "x "). do 4 (split; [easy_text|]). split; [apply over_simple; [split; [discriminate|reflexivity]|reflexivity]|].
    split; [|reflexivity]. split.
    - intros (u & t & E & H). destruct H; discriminate E.
    - eexists. split; [|reflexivity]. apply (reads_text _ (bs "x ")); [apply chunk_simple; easy_text|easy_text|reflexivity|].
      intros K. exfalso. revert K. apply no_backslash. reflexivity. }
  apply reads_last. apply (reads_blank_line unq _ []); [constructor|exact I].
  Unshelve. reflexivity.
Qed.

Example C69_small_parsed : exists d, parse unq small = Ok d /\ length (d_instructions d) = 2.
Proof. eexists. split; vm_compute; reflexivity. Qed.

(** A COPY with one path is read as an instruction with any name, and so is a RUN followed
    by a blank only; an ENV with something left over is not read at all. *)
Definition odd : bytes := lines ["COPY a"; "RUN "; "FROM --x=y"]%string.
Example C69_odd_reading : exists x y z, reading unq odd [IMisc x; IMisc y; IMisc z].
Proof.
  destruct (parse unq odd) as [d|e| |] eqn:E; [|vm_compute in E; discriminate..].
  pose proof (proj1 (C69_exact unq odd d eq_refl) E) as (_ & (l & R & El) & _).
  assert (K : exists x y z, d_instructions d = [IMisc x; IMisc y; IMisc z]).
  { vm_compute in E. injection E as <-. do 3 eexists. reflexivity. }
  destruct K as (x & y & z & K). rewrite K in El. exists x, y, z.
  destruct l as [|[] [|[] [|[] [|[] ?]]]]; cbn in El; try discriminate; try (injection El as -> -> ->; exact R).
Qed.
Example C69_left_over : forall l, ~ reading unq (bs "ENV a=b c") l.
Proof.
  intros l R. destruct (proj2 (C69_accepted unq (bs "ENV a=b c") eq_refl) (ex_intro _ l R)) as (d & E).
  vm_compute in E. discriminate.
Qed.
End Examples.

Print Assumptions C69_accepted.
Print Assumptions C69_exact.
Print Assumptions C69_one_reading.
Print Assumptions C11_exact.
