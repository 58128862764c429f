(** C65: where a syntax error is reported. *)

From Coq Require Import String.
From Verif Require Import Bytes BytesFacts Result Grammar Peg PegFacts PegRules Ast Image Convert Dockerfile Enquote SpecSyntax SpecClear SpecJoin
  Attempts AttemptsFacts ParseEdit JoinDoc JoinError PropsDoc PropsParse PropsJoin.
Local Open Scope nat_scope.

(** The position is one of the text: it is not past the end, and not within a character.
    [pest::state] makes a [Position] of it and unwraps that; it does not panic. *)
Theorem C65_in_text input : valid_utf8 input = true ->
  error_position input <= length input /\ is_boundary input (error_position input) = true.
Proof.
  intros Hv. assert (K : fine input (error_position input)).
  { unfold error_position, parse_attempts. assert (Hr : reached input 0 input) by (exists []; auto).
    apply attempts_fine; [reflexivity|exact Hr|]. exists input. exact Hr. }
  destruct K as (s & w & -> & -> & Hs). rewrite app_length. split; [lia|]. apply boundary_of_app. exact Hs.
Qed.

Lemma syntax_error unq input : valid_utf8 input = true -> parse unq input = Err EParse -> exists q x s f, run ctx0 document_lines 0 input = Done q (x :: s) f.
Proof.
  intros Hv E. apply (TwinDoc.rejected_run unq input Hv) in E. rewrite run_dockerfile in E.
  pose proof (meta_done 0 input) as D. unfold document_lines in *. rewrite run_seq in * by reflexivity.
  destruct (run ctx0 (Call R_meta_step) 0 input) as [q1 s1 f1| |]; [|congruence|discriminate].
  destruct (lines_done q1 s1) as (q2 & s2 & f2 & E2). rewrite E2 in *. destruct s2; [discriminate|]. eauto.
Qed.

Lemma no_syntax_error unq input : valid_utf8 input = true -> parse unq input <> Err EParse -> exists q f, run ctx0 document_lines 0 input = Done q [] f.
Proof.
  intros Hv E. rewrite parse_lines in E. pose proof (run_total ctx0 document_lines 0 input eq_refl) as T.
  destruct (run ctx0 document_lines 0 input) as [q [|x s] f| |]; try congruence. eauto.
Qed.

(** The error names at least one rule.  Those named as expected do not match at the
    position, those named as unexpected do. *)
Theorem C65_rules unq input : valid_utf8 input = true -> parse unq input = Err EParse ->
  let rest := skipn (error_position input) input in
  (error_expected input <> [] \/ error_unexpected input <> []) /\
  (forall r, In r (error_expected input) -> pest_parse r rest = Fail) /\
  (forall r, In r (error_unexpected input) -> exists q s f, pest_parse r rest = Done q s f).
Proof.
  intros Hv E. destruct (syntax_error unq input Hv E) as (q & x & s & f & R). destruct (error_rules input q x s f R) as (T & H1 & H2).
  split; [|split; assumption]. unfold told, error_expected, error_unexpected in *. destruct (tr_positives (parse_attempts input)); [right; exact T|left; discriminate].
Qed.

(** The error of two texts that a line break joins (see C56): an error in the first of
    them is reported there, *)
Theorem C65_first unq a n b : valid_utf8 a = true -> valid_utf8 b = true -> complete a -> quotes_apart a (n ++ b) -> breaks a n b ->
  parse unq a = Err EParse ->
  parse unq (a ++ n ++ b) = Err EParse /\ error_position (a ++ n ++ b) <= length a.
Proof.
  intros Ha Hb HC HQ HB E. split; [apply (proj1 (C56_errors unq a n b Ha Hb HC HQ HB)); auto|]. destruct (syntax_error unq a Ha E) as (q & x & s & f & R).
  exact (join_error_first a n b Ha Hb HC HQ HB q x s f R).
Qed.

(** and otherwise one in the second is reported where it is reported without the first,
    and with the same rules; but that at the very beginning of a text, the rule named is
    the one for the whole document. *)
Theorem C65_second unq a n b : valid_utf8 a = true -> valid_utf8 b = true -> complete a -> quotes_apart a (n ++ b) -> breaks a n b ->
  parse unq a <> Err EParse -> parse unq b = Err EParse ->
  parse unq (a ++ n ++ b) = Err EParse /\
  error_position (a ++ n ++ b) = length (a ++ n) + error_position b /\
  (error_position b <> 0 -> error_expected (a ++ n ++ b) = error_expected b /\ error_unexpected (a ++ n ++ b) = error_unexpected b).
Proof.
  intros Ha Hb HC HQ HB Ea Eb. split; [apply (proj1 (C56_errors unq a n b Ha Hb HC HQ HB)); auto|]. destruct (no_syntax_error unq a Ha Ea) as (q & f & R).
  destruct (syntax_error unq b Hb Eb) as (q2 & x & s & f2 & R2). exact (join_error_second a n b Ha Hb HC HQ HB q f q2 x s f2 R R2).
Qed.

(** ** Cases *)

Definition report (s : bytes) : nat * list rule * list rule := (error_position s, error_expected s, error_unexpected s).

Example C65_case_in : let s := bs "FROM x AS " ++ [195; 169]%N in
  valid_utf8 s = true /\ parse enquote_unquote s = Err EParse /\ report s = (10, [R_from_alias], []).
Proof. repeat split; vm_compute; reflexivity. Qed.

Example C65_case_first : parse enquote_unquote (bs "FROM x y") = Err EParse /\ complete (bs "FROM x y") /\
  breaks (bs "FROM x y") [LF] (bs "COPY a") /\ quotes_apart (bs "FROM x y") ([LF] ++ bs "COPY a") /\
  report (bs "FROM x y" ++ [LF] ++ bs "COPY a") = (7, [R_EOI], []).
Proof.
  split; [vm_compute; reflexivity|]. split.
  { apply (complete_line [] (bs "FROM x y")).
    - left. reflexivity.
    - repeat constructor.
    - exists 70%N. split; [left; reflexivity|reflexivity].
    - cbn. intros H. repeat (destruct H as [H|H]; [discriminate|]). exact H.
    - apply not_backslash. vm_compute. reflexivity. }
  split. { split; [constructor|]. split; [discriminate|]. intros _ (a0 & E). apply (f_equal (fun l => last l 0%N)) in E. rewrite last_last in E. discriminate. }
  split; [apply closed_apart; vm_compute; reflexivity|]. vm_compute. reflexivity.
Qed.

Definition second : bytes := bs "RUN x" ++ [LF] ++ bs "ARG a=" ++ [195; 169]%N ++ bs " c".
Example C65_case_second : parse enquote_unquote rough <> Err EParse /\ parse enquote_unquote (second) = Err EParse /\
  quotes_apart rough ([LF] ++ second) /\ breaks rough [LF] (second) /\
  report (second) = (15, [R_EOI], []) /\
  report (rough ++ [LF] ++ second) = (length rough + 16, [R_EOI], []).
Proof.
  split; [vm_compute; discriminate|]. split; [vm_compute; reflexivity|]. split; [apply no_quote_after; repeat constructor; discriminate|].
  split. { split; [constructor|]. split; [discriminate|]. intros _ (a0 & E). apply (f_equal (fun l => last l 0%N)) in E. rewrite last_last in E. discriminate. }
  split; vm_compute; reflexivity.
Qed.

(** The exception: an error at the very beginning *)
Example C65_case_start : parse enquote_unquote (bs "=") = Err EParse /\
  report (bs "=") = (0, [R_dockerfile], []) /\ error_position (bs "FROM x" ++ [LF] ++ bs "=") = 7 /\
  error_expected (bs "FROM x" ++ [LF] ++ bs "=") <> [R_dockerfile].
Proof. repeat split; try (vm_compute; reflexivity). vm_compute. discriminate. Qed.

Print Assumptions C65_in_text.
Print Assumptions C65_rules.
Print Assumptions C65_first.
Print Assumptions C65_second.
