(** C50: the case of keywords, and whether blanks are spaces or tabs, makes no difference. *)

From Coq Require Import String.
From Verif Require Import Bytes BytesFacts Result Ast Convert Dockerfile Enquote SpecParts Twin TwinDoc PropsDoc.
Local Open Scope nat_scope.

(** Two bytes that differ only in case, or a space and a tab *)
Definition look_alike (x y : N) : Prop :=
  x = y \/
  ((x = 32 \/ x = 9) /\ (y = 32 \/ y = 9))%N \/
  (65 <= x <= 90 /\ y = x + 32)%N \/
  (65 <= y <= 90 /\ x = y + 32)%N.

Lemma look_alike_twin x y : look_alike x y -> twin x y.
Proof.
  assert (U : forall z, (65 <= z <= 90)%N -> canon z = (z + 32)%N /\ canon (z + 32) = (z + 32)%N).
  { intros z Hz. unfold canon. rewrite (proj2 (N.eqb_neq z TAB)) by lia. rewrite (proj2 (N.eqb_neq (z + 32) TAB)) by lia.
    unfold lower_byte, is_upper. rewrite (proj2 (in_range_spec 65 90 z)) by lia.
    destruct (in_range 65 90 (z + 32)) eqn:E; [apply in_range_spec in E; lia|auto]. }
  unfold twin. intros [->|[[Hx Hy]|[[H ->]|[H ->]]]].
  - reflexivity.
  - destruct Hx; destruct Hy; subst; reflexivity.
  - destruct (U x H) as [-> ->]. reflexivity.
  - destruct (U y H) as [-> ->]. reflexivity.
Qed.

Lemma look_alikes_twins a b : Forall2 look_alike a b -> twins a b.
Proof. induction 1; constructor; [apply look_alike_twin; assumption|assumption]. Qed.

Lemma look_alikes_sym a b : Forall2 look_alike a b -> Forall2 look_alike b a.
Proof. induction 1 as [|x y a b H _ IH]; constructor; [|exact IH]. unfold look_alike in *. intuition. Qed.

(** A document and a copy of it that differs only in the case of letters and in the
    choice of blanks, and not at all where an instruction carries text (a string or a
    comment): both have the same instructions, with the same spans. *)
Theorem C50_spelling unq input input' d : valid_utf8 input = true -> valid_utf8 input' = true ->
  Forall2 look_alike input input' -> parse unq input = Ok d ->
  (forall i y, In i (d_instructions d) -> In y (within (instruction_part i)) -> part_carried y <> Nothing ->
    text_at input' (part_span y) = text_at input (part_span y)) ->
  parse unq input' = Ok (Dockerfile input' (d_global_args d) (d_instructions d)).
Proof. intros V V' H. apply parse_twins; auto. apply look_alikes_twins. exact H. Qed.

(** Whether a document is rejected as ungrammatical never depends on case or on the
    choice of blanks, not even inside strings and comments. *)
Theorem C50_rejected unq input input' : valid_utf8 input = true -> valid_utf8 input' = true ->
  Forall2 look_alike input input' -> (parse unq input = Err EParse <-> parse unq input' = Err EParse).
Proof.
  intros V V' H. split; apply rejected_twins; auto; apply look_alikes_twins; [exact H|apply look_alikes_sym; exact H].
Qed.

Definition shouting : bytes :=
  lines ["ARG V=1"; "FROM a:$V AS b"; "# note"; "  COPY x y"; "RUN make \"; " all"; "LABEL k=v"; "USER me"]%string.
(** The same document with other case and other blanks *)
Definition whispering : bytes :=
  bs "arg" ++ [TAB] ++ bs "V=1" ++ [LF] ++ bs "From a:$V" ++ [TAB] ++ bs "as b" ++ [LF] ++ bs "# NOTE" ++ [LF] ++
  [TAB; SP] ++ bs "cOPY" ++ [TAB] ++ bs "x" ++ [TAB] ++ bs "y" ++ [LF] ++
  bs "run make \" ++ [LF] ++ bs " all" ++ [LF] ++ bs "label" ++ [TAB] ++ bs "k=v" ++ [LF] ++ bs "USER me" ++ [LF].

Example C50_case unq : exists d, parse unq shouting = Ok d /\ length (d_instructions d) = 6 /\
  valid_utf8 shouting = true /\ valid_utf8 whispering = true /\ Forall2 look_alike shouting whispering /\
  (forall i y, In i (d_instructions d) -> In y (within (instruction_part i)) -> part_carried y <> Nothing ->
    text_at whispering (part_span y) = text_at shouting (part_span y)) /\
  shouting <> whispering.
Proof.
  eexists. split; [vm_compute; reflexivity|]. split; [reflexivity|]. split; [vm_compute; reflexivity|]. split; [vm_compute; reflexivity|].
  split.
  { unfold shouting, whispering. vm_compute bs. vm_compute lines. cbn [app].
    repeat (constructor; [unfold look_alike; lia|]). constructor. }
  split; [|intros E; vm_compute in E; discriminate E].
  intros i y Hi Hy Hc.
  assert (K : forall l, forallb (fun i => forallb (fun y => match part_carried y with Nothing => true | _ =>
      beqb (text_at whispering (part_span y)) (text_at shouting (part_span y)) end) (within (instruction_part i))) l = true ->
    In i l -> text_at whispering (part_span y) = text_at shouting (part_span y)).
  { intros l Hl Hil. rewrite forallb_forall in Hl. apply Hl in Hil. rewrite forallb_forall in Hil. apply Hil in Hy.
    destruct (part_carried y); [congruence| |]; apply beqb_eq; exact Hy. }
  refine (K _ _ Hi). vm_compute. reflexivity.
Qed.

Example C50_ungrammatical unq : parse unq (bs "FROM a AS") = Err EParse /\ parse unq (bs "from A aS") = Err EParse.
Proof. split; vm_compute; reflexivity. Qed.

Print Assumptions C50_spelling.
Print Assumptions C50_rejected.
