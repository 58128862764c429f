(** C58: how line ends are written - LF, CR LF or CR - makes no difference outside quoted
    strings. *)

From Coq Require Import String.
From Verif Require Import Bytes BytesFacts Result Ast Convert Dockerfile Enquote SpecSyntax SpecParts SpecMove SpecLines Lines
  LinesDoc PropsDoc.
Local Open Scope nat_scope.

(** Two documents side by side, equal but for the way line ends are written: the second
    has the same instructions as the first, every span moved to where its text now
    stands.  Quoted strings must not extend over a line end. *)
Theorem C58_line_ends unq l input input' d : side_by_side l -> left_text l = input -> right_text l = input' ->
  valid_utf8 input = true -> parse unq input = Ok d ->
  (forall i y c, In i (d_instructions d) -> In y (within (instruction_part i)) -> part_carried y = AString c ->
    quoted_text (text_at input (part_span y)) -> no_newline (text_at input (part_span y))) ->
  parse unq input' = Ok (move_dockerfile (across l) input' d).
Proof. intros Hl <- <- V H HP. apply parse_lines; auto. Qed.

(** Whether a document is rejected as ungrammatical never depends on line ends, not
    even inside quoted strings. *)
Theorem C58_rejected unq input input' : same_lines input input' -> valid_utf8 input = true ->
  (parse unq input = Err EParse <-> parse unq input' = Err EParse).
Proof.
  intros (l & Hl & <- & <-) V. split; [apply rejected_lines; assumption|]. intros H.
  pose proof (rejected_lines unq (swap_marks l)) as K. rewrite swap_left, swap_right in K. apply K; [apply swap_side; exact Hl| |exact H].
  apply lines_valid; [apply Hl|exact V].
Qed.

(** Every LF written as CR LF: every span moves by the number of line ends before it. *)
Theorem C58_crlf unq input d : ~ In CR input -> valid_utf8 input = true -> parse unq input = Ok d ->
  (forall i y c, In i (d_instructions d) -> In y (within (instruction_part i)) -> part_carried y = AString c ->
    quoted_text (text_at input (part_span y)) -> no_newline (text_at input (part_span y))) ->
  parse unq (with_crlf input) = Ok (move_dockerfile (fun x => x + breaks_before input x) (with_crlf input) d).
Proof.
  intros Hc V H HP. pose proof (parse_lines unq (crlf_marks input) d (fun x => x + breaks_before input x)) as K.
  rewrite crlf_left, crlf_right in K. apply K; auto; [apply crlf_side; exact Hc|apply crlf_across].
Qed.

Definition windows : bytes :=
  lines ["ARG V=1"; "FROM a:$V AS b"; "# note"; ""; "RUN make \"; "  # why"; " all"; "LABEL ""k k""=v \"; "  w=1";
    "CMD [ ""x"", \"; " ""y"" ]"; "USER me"]%string.

Example C58_case unq : unq = enquote_unquote ->
  ~ In CR windows /\ valid_utf8 windows = true /\ exists d, parse unq windows = Ok d /\
  (forall i y c, In i (d_instructions d) -> In y (within (instruction_part i)) -> part_carried y = AString c ->
    quoted_text (text_at windows (part_span y)) -> no_newline (text_at windows (part_span y))) /\
  map instruction_span (d_instructions d) = [Span 0 7; Span 8 22; Span 31 54; Span 55 76; Span 77 96; Span 97 104] /\
  match parse unq (with_crlf windows) with
  | Ok e => map instruction_span (d_instructions e) = [Span 0 7; Span 9 23; Span 35 60; Span 62 84; Span 86 106; Span 108 115]
  | _ => False
  end.
Proof.
  intros ->. split.
  { intros H. assert (K : existsb (N.eqb CR) windows = true) by (apply existsb_exists; exists CR; auto). vm_compute in K. discriminate. }
  split; [vm_compute; reflexivity|]. eexists. split; [vm_compute; reflexivity|]. split; [|split; vm_compute; reflexivity].
  intros i y c Hi Hy Hc _.
  assert (K : forall l, forallb (fun i => forallb (fun y => match part_carried y with Nothing => true | _ =>
      forallb (fun c => negb (is_newline_byte c)) (text_at windows (part_span y)) end) (within (instruction_part i))) l = true ->
    In i l -> no_newline (text_at windows (part_span y))).
  { intros l Hl Hil. rewrite forallb_forall in Hl. apply Hl in Hil. rewrite forallb_forall in Hil. apply Hil in Hy.
    rewrite Hc in Hy. apply Forall_forall. intros b Hb. rewrite forallb_forall in Hy. apply Hy in Hb.
    destruct (is_newline_byte b); [discriminate|reflexivity]. }
  refine (K _ _ Hi). vm_compute. reflexivity.
Qed.

(** The three kinds of line end in one document *)
Definition mixed_marks : list mark :=
  map Same (bs "FROM a") ++ [Ends [LF] [CR]] ++ map Same (bs "RUN x \") ++ [Ends [CR] [LF]] ++ map Same (bs "# c") ++ [Ends [CR; LF] [LF]] ++ map Same (bs " y") ++ [Ends [LF] [CR; LF]].
Example C58_case_mixed unq : side_by_side mixed_marks /\
  exists d, parse unq (left_text mixed_marks) = Ok d /\
    map instruction_span (d_instructions d) = [Span 0 6; Span 7 22] /\
    parse unq (right_text mixed_marks) = Ok (move_dockerfile (across mixed_marks) (right_text mixed_marks) d).
Proof.
  split.
  { split; [repeat (constructor; [first [reflexivity|split; constructor]|]); constructor|].
    cbv [mixed_marks]. vm_compute. repeat (split; [intros; discriminate|]). repeat split; intros; discriminate. }
  eexists. split; [vm_compute; reflexivity|]. split; vm_compute; reflexivity.
Qed.

(** Inside quoted strings line ends do make a difference: an escaped line break is taken
    out of a LABEL value if it is written LF, and not if it is written CR LF. *)
Definition broken_label : bytes := lines ["LABEL a=""b\"; "c"""]%string.
Theorem C58_quoted_refuted : exists input, ~ In CR input /\ valid_utf8 input = true /\
  (exists d, parse enquote_unquote input = Ok d) /\ parse enquote_unquote (with_crlf input) = Err EUnescape.
Proof.
  exists broken_label. split.
  { intros H. assert (K : existsb (N.eqb CR) broken_label = true) by (apply existsb_exists; exists CR; auto). vm_compute in K. discriminate. }
  split; [vm_compute; reflexivity|]. split; [eexists|]; vm_compute; reflexivity.
Qed.

Print Assumptions C58_line_ends.
Print Assumptions C58_rejected.
Print Assumptions C58_crlf.
Print Assumptions C58_quoted_refuted.
