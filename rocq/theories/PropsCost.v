(** What parsing costs: steps (C48) and nested calls (C49).  Cost.v defines both for
    every run of the grammar. *)

From Coq Require Import String.
From Verif Require Import Bytes BytesFacts Grammar Peg Result Ast Convert Dockerfile Enquote Cost CostFacts
  SpecSyntax SpecClear SpecLayout ListFacts PropsDoc PropsParse PropsComplete DepthFacts.
Local Open Scope nat_scope.

(** ** C48: no exponential backtracking *)
Theorem C48_polynomial input :
  (N.of_nat (parse_steps input) <= 24254518 * (N.of_nat (length input) + 1) ^ 4)%N.
Proof. exact (parse_steps_bound input). Qed.

Example C48_case : parse_steps (lines ["FROM a"; "RUN b"]%string) = 273.
Proof. vm_compute. reflexivity. Qed.

(** ** C49: nested calls *)

(** Backslashes and hash signs *)
Fixpoint backslashes_and_hashes (s : bytes) : nat :=
  match s with
  | [] => 0
  | c :: s' => (if N.eqb c 92 then 1 else if N.eqb c 35 then 1 else 0) + backslashes_and_hashes s'
  end.

Theorem C49_no_deeper input : parse_depth input <= 13 + backslashes_and_hashes input.
Proof.
  replace (backslashes_and_hashes input) with (marks input); [apply parse_depth_above|].
  induction input as [|c s IH]; [reflexivity|]. cbn [backslashes_and_hashes]. rewrite <- IH. unfold marks. cbn [filter]. unfold is_mark.
  change BSLASH with 92%N. change HASH with 35%N. destruct (N.eqb c 92); [reflexivity|]. destruct (N.eqb c 35); reflexivity.
Qed.

(** One level for each component of a shell text *)
Theorem C49_level_per_line unq input d i b : valid_utf8 input = true -> parse unq input = Ok d ->
  In i (d_instructions d) -> In b (shell_texts_of i) -> length (br_components b) < parse_depth input.
Proof. apply parse_depth_below. Qed.

(** A document with a command of [n + 1] lines *)
Definition long_command (n : nat) : bytes :=
  bs "RUN " ++ concat (repeat (bs "a\" ++ [LF]) n) ++ bs "a".

Lemma not_comment : ~ comment_like [97%N].
Proof. intros (b & t & E & Hb). destruct b as [|x b]; [discriminate|]. injection E as <- E. destruct b; discriminate. Qed.

Lemma not_backslash : ~ ends_in_backslash [97%N].
Proof. intros (t & b & E & Hb). destruct t as [|x [|y t]]; discriminate. Qed.

Lemma chunk_a : chunk [97%N].
Proof. split; [discriminate|]. split; [repeat constructor|reflexivity]. Qed.

Lemma long_clear n : forall p, exists l, clear_shell_at p (concat (repeat (bs "a\" ++ [LF]) n) ++ bs "a") l /\ length l = S n.
Proof.
  induction n as [|n IH]; intros p.
  - eexists. split; [apply clear_text; [exact chunk_a|exact not_comment|exact not_backslash]|reflexivity].
  - destruct (IH (p + 1 + 2)) as (l & Hl & El). eexists. split.
    + change (concat (repeat (bs "a\" ++ [LF]) (S n)) ++ bs "a")
        with ([97%N] ++ [BSLASH; LF] ++ (concat (repeat (bs "a\" ++ [LF]) n) ++ bs "a")).
      apply clear_continued; [exact chunk_a|exact not_comment| |exact Hl].
      exists [], [LF]. split; [reflexivity|]. split; [apply Forall_nil|constructor].
    + cbn [length]. rewrite El. reflexivity.
Qed.

(** No bound holds for all documents. *)
Theorem C49_unbounded unq n : valid_utf8 (long_command n) = true /\ length (long_command n) = 3 * n + 5 /\
  exists d, parse unq (long_command n) = Ok d /\ n + 1 < parse_depth (long_command n).
Proof.
  assert (Hv : valid_utf8 (long_command n) = true).
  { unfold long_command. change (bs "RUN ") with ([82; 85; 78; 32]%N). cbn [app]. rewrite !valid_utf8_cons_ascii by lia.
    induction n as [|n IH]; [reflexivity|]. cbn [repeat concat]. change (bs "a\" ++ [LF]) with [97; 92; 10]%N at 1. cbn [app].
    rewrite !valid_utf8_cons_ascii by lia. exact IH. }
  split; [exact Hv|]. split.
  { unfold long_command. rewrite app_length. change (length (bs "RUN ")) with 4. clear Hv. induction n as [|n IH]; [reflexivity|].
    cbn [repeat concat]. rewrite <- app_assoc, app_length. change (length (bs "a\" ++ [LF])) with 3. lia. }
  destruct (long_clear n 4) as (l & Hl & El).
  set (cmd := concat (repeat (bs "a\" ++ [LF]) n) ++ bs "a") in *.
  assert (Hc : exists t, cmd = 97%N :: t) by (unfold cmd; destruct n; eexists; reflexivity).
  set (b := BreakableString (at_ 4 cmd) l).
  set (i := IRun (RunInstruction (at_ 0 (long_command n)) (Shell b))).
  assert (K : clear_document unq (long_command n) [i]).
  { apply clear_last. apply (clear_open unq 0 [] (long_command n) i); [constructor|].
    exists (bs "RUN"), (bs " "), cmd, b. split; [reflexivity|]. split; [reflexivity|]. split.
    { apply gap_blank; [reflexivity|constructor]. }
    split; [discriminate|]. split; [destruct Hc as (t & ->); exists 97%N, t; repeat split; discriminate|].
    split; [apply not_begins_list; [destruct Hc as (t & ->); discriminate|intros (x & y & z & E & _); destruct Hc as (t & Hc); rewrite Hc in E; discriminate]|].
    split; [exists l; split; [exact Hl|reflexivity]|]. split; reflexivity. }
  destruct (C38_complete unq _ _ Hv K) as (d & E & _ & Ed & _). exists d. split; [exact E|].
  assert (Hi : In i (d_instructions d)) by (rewrite Ed; left; reflexivity).
  pose proof (C49_level_per_line unq _ d i b Hv E Hi (or_introl eq_refl)) as H. cbn [br_components b] in H. lia.
Qed.

Example C49_case : parse_depth (long_command 5) = 13 /\ backslashes_and_hashes (long_command 5) = 5 /\
  reads (long_command 5) (fun d => exists i b, In i (d_instructions d) /\ In b (shell_texts_of i) /\ length (br_components b) = 6).
Proof.
  split; [vm_compute; reflexivity|]. split; [reflexivity|]. split; [vm_compute; reflexivity|]. eexists. split; [vm_compute; reflexivity|].
  do 2 eexists. split; [left; reflexivity|]. split; [left; reflexivity|]. reflexivity.
Qed.

Print Assumptions C48_polynomial.
Print Assumptions C49_no_deeper.
Print Assumptions C49_level_per_line.
Print Assumptions C49_unbounded.
