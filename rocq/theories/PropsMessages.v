(** C71, C72: the text of an error and of a span. *)

From Coq Require Import String DecimalString Decimal DecimalNat.
From Verif Require Import Bytes BytesFacts Grammar Peg Result Messages Ast Image Convert Dockerfile Enquote
  SpecImage SpecSyntax PropsDoc PropsParse.
Local Open Scope string_scope.

(** ** C71 *)

(** The whole text of a generic error, and what in the input it is about.  [s] and [f] are
    the texts of other crates, which do not matter here. *)
Theorem C71_generic unq input m s f : valid_utf8 input = true -> parse unq input = Err (EGeneric m) ->
  (display s f (EGeneric m) = "unable to parse Dockerfile: image reference digest is invalid" /\
   exists w, occurs w input /\ bad_digest w) \/
  (display s f (EGeneric m) = "unable to parse Dockerfile: unexpected token comment" /\
   exists w, occurs w input /\ comment_in_command w).
Proof.
  intros Hv H. destruct (C42_errors_partial unq input _ Hv H) as [K|[[K _]|[[K X]|[K X]]]];
    try discriminate; injection K as ->; [left|right]; (split; [reflexivity|exact X]).
Qed.

(** The errors that reading and parsing gives *)
Lemma reader_errors unq evs e : from_reader unq evs = Err e ->
  e = ERead \/ e = EParse \/ e = EUnescape \/ e = EGeneric (MText "image reference digest is invalid") \/ e = EGeneric (MUnexpected R_comment).
Proof.
  unfold from_reader. destruct (read_all evs []) as [buf|]; [|intros E; injection E as <-; auto].
  destruct (valid_utf8 buf) eqn:V; [|intros E; injection E as <-; auto]. intros E.
  destruct (C42_errors_partial unq buf _ V E) as [K|[[K _]|[[K _]|[K _]]]]; auto 6.
Qed.

(** The kind of an error, and for a generic error all of it, can be told from the text,
    whatever the other crates say. *)
Theorem C71_told_apart unq1 unq2 evs1 evs2 e1 e2 s1 s2 f1 f2 :
  from_reader unq1 evs1 = Err e1 -> from_reader unq2 evs2 = Err e2 ->
  display s1 f1 e1 = display s2 f2 e2 -> e1 = e2.
Proof.
  intros H1 H2. apply reader_errors in H1, H2.
  destruct H1 as [->|[->|[->|[->| ->]]]], H2 as [->|[->|[->|[->| ->]]]]; cbn; congruence.
Qed.

(** A token is named by the name of its rule alone. *)
Theorem C71_rule_names r1 r2 : rule_name r1 = rule_name r2 -> r1 = r2.
Proof. destruct r1, r2; intros E; try reflexivity; discriminate E. Qed.

(** The text of a failed conversion names the type asked for. *)
Theorem C71_conversion i s f :
  (as_from i = None -> exists e, try_from_from i = Err e /\ display s f e = "could not convert instruction '" ++ f ++ "' to desired type 'FromInstruction'") /\
  (as_arg i = None -> exists e, try_from_arg i = Err e /\ display s f e = "could not convert instruction '" ++ f ++ "' to desired type 'ArgInstruction'") /\
  (as_label i = None -> exists e, try_from_label i = Err e /\ display s f e = "could not convert instruction '" ++ f ++ "' to desired type 'LabelInstruction'") /\
  (as_run i = None -> exists e, try_from_run i = Err e /\ display s f e = "could not convert instruction '" ++ f ++ "' to desired type 'RunInstruction'") /\
  (as_entrypoint i = None -> exists e, try_from_entrypoint i = Err e /\ display s f e = "could not convert instruction '" ++ f ++ "' to desired type 'EntrypointInstruction'") /\
  (as_cmd i = None -> exists e, try_from_cmd i = Err e /\ display s f e = "could not convert instruction '" ++ f ++ "' to desired type 'CmdInstruction'") /\
  (as_copy i = None -> exists e, try_from_copy i = Err e /\ display s f e = "could not convert instruction '" ++ f ++ "' to desired type 'CopyInstruction'") /\
  (as_env i = None -> exists e, try_from_env i = Err e /\ display s f e = "could not convert instruction '" ++ f ++ "' to desired type 'EnvInstruction'") /\
  (as_misc i = None -> exists e, try_from_misc i = Err e /\ display s f e = "could not convert instruction '" ++ f ++ "' to desired type 'MiscInstruction'").
Proof.
  pose proof (C41_try_from_error i) as K. repeat (split; [intros E; eexists; split; [apply K; exact E|reflexivity]|]).
  intros E; eexists; split; [apply K; exact E|reflexivity].
Qed.

Example C71_case :
  let shown input := match parse enquote_unquote input with Err e => display "" "" e | _ => "" end in
  shown (bs "FROM a@b") = "unable to parse Dockerfile: image reference digest is invalid" /\
  shown (lines ["RUN \"; "# c"; "x"]) = "unable to parse Dockerfile: unexpected token comment" /\
  shown (bs "FROM") = "could not parse Dockerfile: " /\
  shown (bs "COPY ""a b""") = "error unescaping string: " /\
  exists e, from_reader enquote_unquote [ReadFails] = Err e /\ display "x" "" e = "could not read Dockerfile: x".
Proof. vm_compute. repeat split. eexists. split; reflexivity. Qed.

(** ** C72 *)

Lemma number_inj n m : number n = number m -> n = m.
Proof.
  unfold number. intros E. apply (f_equal NilEmpty.uint_of_string) in E. rewrite !NilEmpty.usu in E.
  injection E as E. apply (f_equal Nat.of_uint) in E. rewrite !Unsigned.of_to in E. exact E.
Qed.

(** A number is followed by something that is not a digit. *)
Lemma digits_end d1 : forall d2 c x y, (forall d, ~ exists r, NilEmpty.string_of_uint d = String c r) ->
  NilEmpty.string_of_uint d1 ++ String c x = NilEmpty.string_of_uint d2 ++ String c y -> d1 = d2 /\ x = y.
Proof.
  induction d1 as [|d IH|d IH|d IH|d IH|d IH|d IH|d IH|d IH|d IH|d IH]; intros d2 c x y Hc E; destruct d2;
    cbn [NilEmpty.string_of_uint append] in E; try discriminate E.
  1: injection E as E; auto.
  all: try (exfalso; first [injection E as -> _ | injection E as <- _]; first [apply (Hc (D0 Nil)); eexists; reflexivity
    | apply (Hc (D1 Nil)); eexists; reflexivity
    | apply (Hc (D2 Nil)); eexists; reflexivity
    | apply (Hc (D3 Nil)); eexists; reflexivity
    | apply (Hc (D4 Nil)); eexists; reflexivity
    | apply (Hc (D5 Nil)); eexists; reflexivity
    | apply (Hc (D6 Nil)); eexists; reflexivity
    | apply (Hc (D7 Nil)); eexists; reflexivity
    | apply (Hc (D8 Nil)); eexists; reflexivity
    | apply (Hc (D9 Nil)); eexists; reflexivity]).
  all: injection E as E; destruct (IH _ _ _ _ Hc E) as [-> ->]; auto.
Qed.

Lemma no_digit c : ~ In c (list_ascii_of_string "0123456789") ->
  forall d, ~ exists r, NilEmpty.string_of_uint d = String c r.
Proof. intros K d (r & E). apply K. destruct d; try discriminate E; injection E as <- _; cbn; auto 12. Qed.

(** The text tells the span. *)
Theorem C72_span_text sp1 sp2 : span_debug sp1 = span_debug sp2 -> sp1 = sp2.
Proof.
  destruct sp1 as [a b], sp2 as [a' b']. unfold span_debug. cbn [s_start s_end append]. intros E. injection E as E.
  apply digits_end in E; [|apply no_digit; cbn; intuition discriminate].
  destruct E as [Ea E]. injection E as E.
  apply digits_end in E; [|apply no_digit; cbn; intuition discriminate].
  destruct E as [Eb _]. f_equal; apply number_inj; unfold number; congruence.
Qed.

(** It is the start and the end in decimal, in this order. *)
Theorem C72_span_reads sp : exists x y dx dy, span_debug sp = "(" ++ x ++ ", " ++ y ++ ")" /\
  NilEmpty.uint_of_string x = Some dx /\ Nat.of_uint dx = s_start sp /\
  NilEmpty.uint_of_string y = Some dy /\ Nat.of_uint dy = s_end sp.
Proof.
  exists (number (s_start sp)), (number (s_end sp)), (Nat.to_uint (s_start sp)), (Nat.to_uint (s_end sp)).
  unfold number. rewrite !NilEmpty.usu, !Unsigned.of_to. repeat split.
Qed.

Example C72_case : span_debug (Span 0 5) = "(0, 5)" /\ span_debug (Span 10 127) = "(10, 127)".
Proof. split; reflexivity. Qed.

Print Assumptions C71_generic.
Print Assumptions C71_told_apart.
Print Assumptions C71_rule_names.
Print Assumptions C71_conversion.
Print Assumptions C72_span_text.
Print Assumptions C72_span_reads.
