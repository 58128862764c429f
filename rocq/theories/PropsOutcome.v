(** Which error a text gives, exactly (C70).  Which texts have no syntax errors, and which
    error each of them gives, is defined in SpecFail.v; [unq] stands for the unquoting
    function of the enquote crate. *)

From Coq Require Import String.
From Verif Require Import Bytes BytesFacts Grammar Peg Result Ast Image Convert Dockerfile Enquote
  SpecImage ImageFacts SpecDoc DocFacts SpecSyntax SpecClear SpecExact SpecFail PropsDoc PropsParse PropsComplete PropsExact
  Forward5 Exact7 Exact8 Fail1 Fail2 Fail3 Fail4.
Local Open Scope nat_scope.

(** ** C70 *)

(** A syntax error is reported exactly for the texts that cannot be divided into lines,
    comments and instructions, whatever the strings, digests and comments in them. *)
Theorem C70_syntax_error unq input : valid_utf8 input = true ->
  (parse unq input = Err EParse <-> ~ document_text 0 input).
Proof. apply syntax_exact. Qed.

(** Any other error is that of the first line that has one. *)
Theorem C70_exact unq input e : valid_utf8 input = true ->
  (parse unq input = Err e <-> (e = EParse /\ ~ document_text 0 input) \/ document_fails unq 0 input e).
Proof. apply error_exact. Qed.

(** The three cases are exhaustive and exclude one another, and there is one error only. *)
Theorem C70_cases unq input : valid_utf8 input = true ->
  (document_text 0 input <-> (exists l, reading unq input l) \/ (exists e, document_fails unq 0 input e)) /\
  ~ ((exists l, reading unq input l) /\ (exists e, document_fails unq 0 input e)).
Proof.
  intros Hv. split.
  - split.
    + intros H. destruct (C01_total unq input Hv) as [E|[e E]]; [left; apply (C69_accepted unq input Hv); exact E|].
      right. exists e. apply C70_exact in E; [|exact Hv]. destruct E as [[_ K]|K]; [contradiction|exact K].
    + intros H. apply (no_syntax_error_text unq input Hv). destruct H as [(l & H)|(e & H)].
      * destruct (proj2 (C69_accepted unq input Hv) (ex_intro _ l H)) as (d & ->). discriminate.
      * rewrite (proj2 (C70_exact unq input e Hv) (or_intror H)). intros E. injection E as ->.
        apply (document_fails_not_syntax _ _ _ _ H). reflexivity.
  - intros [(l & H1) (e & H2)]. destruct (proj2 (C69_accepted unq input Hv) (ex_intro _ l H1)) as (d & E1).
    assert (E2 : parse unq input = Err e) by (apply C70_exact; auto). congruence.
Qed.

Theorem C70_one_error unq input e1 e2 : valid_utf8 input = true ->
  document_fails unq 0 input e1 -> document_fails unq 0 input e2 -> e1 = e2.
Proof.
  intros Hv H1 H2. assert (E1 : parse unq input = Err e1) by (apply C70_exact; auto).
  assert (E2 : parse unq input = Err e2) by (apply C70_exact; auto). congruence.
Qed.

(** Whether there is a syntax error does not depend on how strings are unescaped. *)
Theorem C70_escapes_apart unq1 unq2 input : valid_utf8 input = true ->
  (parse unq1 input = Err EParse <-> parse unq2 input = Err EParse).
Proof. intros Hv. rewrite !C70_syntax_error by exact Hv. reflexivity. Qed.

(** ** C12: the digests that are accepted, exactly *)
Theorem C12_exact unq img r : image_text img -> image_ref_of img r ->
  ((forall h, i_hash r = Some h -> digest_accepted h) ->
   exists d f, parse unq (bs "FROM " ++ img) = Ok d /\ d_instructions d = [IFrom f] /\ from_image_parsed f = r) /\
  (forall h, i_hash r = Some h -> ~ digest_accepted h ->
   parse unq (bs "FROM " ++ img) = Err (EGeneric (MText "image reference digest is invalid"))).
Proof.
  intros Hi Hr. assert (Hv : valid_utf8 (bs "FROM " ++ img) = true).
  { rewrite valid_utf8_app by reflexivity. apply PartsFacts.image_text_valid. exact Hi. }
  assert (Hg : gap 0 (bs " ")) by (apply gap_blank; [reflexivity|constructor]). split.
  - intros Hd. set (f := FromInstruction (at_ 0 (bs "FROM " ++ img)) [] (SpannedString (at_ 5 img) img) r 0 None).
    assert (R : reading unq (bs "FROM " ++ img) [IFrom f]).
    { apply reads_last. replace (bs "FROM " ++ img) with ([] ++ (bs "FROM " ++ img) ++ []) by apply app_nil_r.
      apply reads_instruction; [constructor| |constructor|reflexivity].
      exists (bs "FROM"), [], 0, (bs " "), img, []. rewrite app_nil_r. split; [reflexivity|]. split; [reflexivity|].
      split; [constructor|]. split; [exact Hg|]. split; [discriminate|]. split; [exact Hi|]. split; [reflexivity|]. split; [exact Hr|].
      split; [exact Hd|]. split; [left; auto|reflexivity]. }
    destruct (proj2 (C69_accepted unq _ Hv) (ex_intro _ _ R)) as (d & E). destruct (proj1 (C69_exact unq _ d Hv) E) as (_ & (l & R2 & El) & _).
    exists d, f. split; [exact E|]. split; [|reflexivity]. rewrite El, (C69_one_reading unq _ _ _ Hv R2 R). reflexivity.
  - intros h Hh Hd. apply C70_exact; [exact Hv|]. right. apply fails_last.
    replace (bs "FROM " ++ img) with ([] ++ (bs "FROM " ++ img) ++ []) by apply app_nil_r. constructor; [constructor| |constructor|reflexivity].
    left. split; [|reflexivity]. exists (bs "FROM"), [], [], 0, (bs " "), img, [], None. rewrite app_nil_r. split; [reflexivity|].
    split; [reflexivity|]. split; [constructor|]. split; [exact Hg|]. split; [discriminate|].
    split; [split; [exact Hi|exists r, h; auto]|left; auto].
Qed.

Example C12_exact_case : let img := bs "a@sha256:" ++ repeat 122%N 63 ++ bs "0" in
  image_text img /\ image_ref_of img (image_parse img) /\ i_hash (image_parse img) = Some (bs "sha256:" ++ repeat 122%N 63 ++ bs "0") /\
  digest_accepted (bs "sha256:" ++ repeat 122%N 63 ++ bs "0").
Proof.
  cbv zeta. split; [split; [discriminate|]; apply Forall_forall; intros c Hc; revert c Hc; apply Forall_forall; repeat constructor|].
  split; [apply image_parse_spec; reflexivity|]. split; [vm_compute; reflexivity|].
  exists (repeat 122%N 63 ++ bs "0"). split; [reflexivity|]. split; [reflexivity|]. split.
  - intros K. apply in_app_or in K. destruct K as [K|[K|[]]]; [apply repeat_spec in K|]; discriminate.
  - exists 48%N. split; [apply in_or_app; right; left; reflexivity|reflexivity].
Qed.

Section Examples.
Notation unq := enquote_unquote.
Notation bad_digest_error := (EGeneric (MText "image reference digest is invalid")).

(** A comment in a command, put together by hand *)
Definition commented : bytes := bs "RUN " ++ [BSLASH; LF] ++ bs "# c" ++ [LF] ++ bs "x" ++ [LF].
Example C70_commented : document_fails unq 0 commented (EGeneric (MUnexpected R_comment)).
Proof.
  change commented with (((bs "RUN" ++ (bs " " ++ [BSLASH; LF] ++ bs "# c" ++ [LF]) ++ bs "x")) ++ [LF] ++ []).
  apply fails_here; [|constructor|discriminate|apply text_last, (text_blank _ []); [constructor|exact I]].
  rewrite <- (app_nil_l (bs "RUN" ++ _)). rewrite <- (app_nil_r (bs "RUN" ++ _)).
  constructor; [constructor| |constructor|reflexivity].
  right. left. split; [|reflexivity]. exists "run"%string, (bs "RUN"), 0, (bs " " ++ [BSLASH; LF] ++ bs "# c" ++ [LF]), (bs "x").
  split; [left; reflexivity|]. split; [reflexivity|]. split; [easy_text|]. split.
  { apply gap_blank; [reflexivity|].
    apply (gap_continue 1 0 [BSLASH; LF] (bs "# c" ++ [LF]) []); [exists [], [LF]; repeat constructor| |constructor].
    apply (skipped_comment 0 [] (bs "# c") [LF] []); [constructor|apply comment_simple; reflexivity|constructor|constructor]. }
  split.
  { split; [intros (c & t & E & b & nl & -> & _); discriminate|]. split; [reflexivity|]. intros _. split; [discriminate|reflexivity]. }
  right. split; [intros (u & t & E & H); destruct H; discriminate E|].
  eexists. eexists. split; [|reflexivity]. apply (reads_text _ (bs "x")); [apply chunk_simple; easy_text|easy_text|reflexivity|].
  intros K. exfalso. revert K. apply no_backslash. reflexivity.
Qed.
Example C70_commented_parsed : parse unq commented = Err (EGeneric (MUnexpected R_comment)).
Proof. apply C70_exact; [reflexivity|]. right. apply C70_commented. Qed.

(** The other errors, and the first of two *)
Definition undigested : bytes := lines ["ARG x"; "FROM a@b"]%string.
Example C70_undigested : document_fails unq 0 undigested bad_digest_error.
Proof.
  destruct (proj1 (C70_exact unq undigested bad_digest_error eq_refl) eq_refl) as [[K _]|K]; [discriminate|exact K].
Qed.
Example C70_order : document_fails unq 0 (lines ["ENV a='\q'"; "FROM a@b"]%string) EUnescape /\
  document_fails unq 0 (lines ["FROM a@b"; "ENV a='\q'"]%string) bad_digest_error /\
  document_fails unq 0 (lines ["FROM --p='\q' a@b"]%string) EUnescape.
Proof.
  split; [|split].
  - destruct (proj1 (C70_exact unq (lines ["ENV a='\q'"; "FROM a@b"]%string) EUnescape eq_refl) eq_refl) as [[K _]|K]; [discriminate|exact K].
  - destruct (proj1 (C70_exact unq (lines ["FROM a@b"; "ENV a='\q'"]%string) bad_digest_error eq_refl) eq_refl) as [[K _]|K]; [discriminate|exact K].
  - destruct (proj1 (C70_exact unq (lines ["FROM --p='\q' a@b"]%string) EUnescape eq_refl) eq_refl) as [[K _]|K]; [discriminate|exact K].
Qed.
(** A syntax error after them comes first. *)
Example C70_syntax_first : ~ document_text 0 (lines ["FROM a@b"; "RUN"]%string).
Proof. apply (C70_syntax_error unq); vm_compute; reflexivity. Qed.
End Examples.

Print Assumptions C70_syntax_error.
Print Assumptions C70_exact.
Print Assumptions C70_cases.
Print Assumptions C70_one_error.
Print Assumptions C70_escapes_apart.
Print Assumptions C12_exact.
