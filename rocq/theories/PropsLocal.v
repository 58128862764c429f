(** C51: an instruction that is written without ambiguity means what it says wherever
    it stands, also in a document that is not.  And more of C11: what must be wrong
    with an instruction for its keyword not to be recognised. *)

From Coq Require Import String.
From Verif Require Import Bytes BytesFacts Grammar Result Ast Convert Dockerfile Enquote SpecImage SpecSyntax SpecClear SpecParts
  PegRules PegTokens PegQuoted Sound SoundDoc Forward Forward3 Forward4 Forward5 Local Idle ParseFacts PropsDoc PropsParse PropsComplete.
Local Open Scope nat_scope.

(** ** C51 *)

(** What may follow a line *)
Definition line_over (post : bytes) : Prop :=
  match post with [] => True | c :: _ => c = LF \/ c = CR end.

Lemma line_over_end post : line_over post -> at_line_end post.
Proof. destruct post as [|c t]; [left; reflexivity|]. intros [-> | ->]; right; reflexivity. Qed.

(** A document that parses, with a line [w] in it that clearly writes the instruction
    [j].  If the parse has an instruction that begins where [j] does then it is [j]
    (a FROM also has its number in the document). *)
Theorem C51_local unq input d i pre w post j : valid_utf8 input = true -> parse unq input = Ok d ->
  In i (d_instructions d) -> input = pre ++ w ++ post -> clear_line_at unq (length pre) w [j] -> line_over post ->
  s_start (instruction_span i) = s_start (instruction_span j) -> exists n, numbered n [j] = [i].
Proof. intros Hv H Hi E Hl Hp. eapply clear_here; eauto. apply line_over_end. exact Hp. Qed.

(** The COPY and the ARG are clear; the lines around them are not: a label without a
    pair, a misspelt FROM, a run without a command. *)
Definition muddled : bytes := lines [
  "LABEL  ";
  "ARG v=1";
  "FROM ""x""";
  "RUN # nothing"]%string.

Example C51_case : exists d i pre post j, parse enquote_unquote muddled = Ok d /\ In i (d_instructions d) /\
  muddled = pre ++ bs "ARG v=1" ++ post /\ clear_line_at enquote_unquote (length pre) (bs "ARG v=1") [IArg j] /\ line_over post /\
  s_start (instruction_span i) = s_start (instruction_span (IArg j)) /\ length (d_instructions d) = 4.
Proof.
  assert (L : exists j, clear_line_at enquote_unquote 8 (bs "ARG v=1") [IArg j] /\ s_start (arg_span j) = 8).
  { eexists. split.
    - eapply (clear_closed enquote_unquote 8 [] (bs "ARG v=1") [] (IArg (ArgInstruction _ _ _))); [constructor| |constructor].
      exists (bs "ARG"), 0, (bs " "), (bs "v"), (bs "=1").
      do 4 (split; [easy_text|]). split; [exists 118%N, []; split; [reflexivity|]; easy_text|]. do 2 (split; [easy_text|]). right.
      exists (bs "1"). eexists. split; [easy_text|].
      split; [right; split; [split; easy_text|split; easy_text]|]. split; [|easy_text]. apply string_plain. reflexivity.
    - reflexivity. }
  destruct L as (j & L & Sj). eexists. eexists. exists (firstn 8 muddled), (skipn 15 muddled), j.
  split; [vm_compute; reflexivity|]. split; [right; left; reflexivity|]. split; [vm_compute; reflexivity|].
  split; [exact L|]. split; [vm_compute; left; reflexivity|]. split; [|reflexivity]. cbn [instruction_span]. rewrite Sj. vm_compute. reflexivity.
Qed.

(** ** C11 *)

(** Clearly written, an instruction with a syntax of its own is recognised. *)
Theorem C11_clear unq input d m pre w post j : valid_utf8 input = true -> parse unq input = Ok d ->
  In (IMisc m) (d_instructions d) -> input = pre ++ w ++ post -> clear_line_at unq (length pre) w [j] -> line_over post ->
  s_start (misc_span m) = s_start (instruction_span j) -> keyword_of j = None.
Proof.
  intros Hv H Hi E Hl Hp Es. destruct (C51_local unq input d (IMisc m) pre w post j Hv H Hi E Hl Hp Es) as (n & K).
  destruct j; try discriminate. reflexivity.
Qed.

(** The first character is a blank *)
Definition begins_blank (w : bytes) : Prop := exists c t, w = c :: t /\ is_blank c = true.

(** The strings of a shell text are blank: it has only comments. *)
Definition only_comments (x : breakable_string) : Prop :=
  forall s, In (BString s) (br_components x) -> blanks (ss_content s).

(** When an unknown instruction has the name of a known one, and its arguments begin
    with a blank, then:
    - it is not LABEL or ENV;
    - if it is RUN, CMD or ENTRYPOINT, there is no command but at most comments;
    - if it is ARG, what comes first is not a letter;
    - if it is FROM, what comes first cannot begin an image, or is a dash;
    - if it is COPY, there are not two words, or the first begins with a dash. *)
Theorem C11_passed_over_partial unq input d m args : valid_utf8 input = true -> parse unq input = Ok d ->
  In (IMisc m) (d_instructions d) -> text_at (d_content d) (br_span (misc_arguments m)) = args ->
  let kw := to_lower (ss_content (misc_name m)) in
  (kw = bs "label" \/ kw = bs "env" -> ~ begins_blank args) /\
  (kw = bs "run" \/ kw = bs "cmd" \/ kw = bs "entrypoint" -> begins_blank args -> only_comments (misc_arguments m)) /\
  (kw = bs "arg" -> forall k g c t, args = g ++ c :: t -> gap k g -> g <> [] -> is_alpha c = false) /\
  (kw = bs "from" -> forall k g c t, args = g ++ c :: t -> gap k g -> g <> [] -> image_char c = true -> c = DASH) /\
  (kw = bs "copy" -> forall k g w k2 g2 c t, args = g ++ w ++ g2 ++ c :: t -> gap k g -> g <> [] ->
    word w -> begins_solid w -> ~ ends_in_backslash w -> gap k2 g2 -> g2 <> [] -> solid c -> begins_with DASH w).
Proof.
  intros Hv H Hi Ea.
  destruct (instruction_step unq input d _ H Hi) as (P & s & q & b2 & s2 & t & j & n & EP & LP & R & _ & _ & Ej & En).
  assert (j = IMisc m). { destruct j; cbn [numbered] in En; try discriminate. exact (f_equal (hd (IMisc m)) En). } subst j.
  assert (Ps : pos input (length P) s) by (unfold pos; rewrite EP; apply skipn_app_exact).
  assert (Hs : valid_utf8 s = true).
  { destruct (C11_keyword unq input d _ Hv H Hi) as (kw & rest & Et & _ & [Hne Hl] & _).
    rewrite (proj1 (parsed_document unq input d Hv H)) in Et. unfold text_at, slice in Et. rewrite <- LP in Et.
    rewrite EP in Et at 1. rewrite skipn_app_exact in Et.
    apply (valid_utf8_cut input Hv P s EP). destruct s as [|c s]; [exact I|]. destruct kw as [|x kw]; [congruence|].
    apply Forall_inv in Hl. destruct (s_end (instruction_span (IMisc m)) - length P) as [|z]; cbn [firstn app] in Et; [discriminate|].
    injection Et as -> _. pose proof (PartsFacts.alpha_ascii x Hl). unfold is_cont, in_range. destruct (N.leb_spec 128 x); [lia|reflexivity]. }
  destruct (misc_step unq input _ _ _ _ _ _ Hs Ps R Ej) as (name & w & Es & En2 & Hv2 & Hne & Esp & Hidle & HF).
  assert (Hw : args = w).
  { rewrite <- Ea, (proj1 (parsed_document unq input d Hv H)), Esp. unfold text_at, at_, slice. cbn [s_start s_end].
    rewrite EP, Es. rewrite app_assoc, <- app_length, skipn_app_exact, app_length.
    replace (length P + length name + length w - (length P + length name)) with (length w) by lia.
    rewrite firstn_app, Nat.sub_diag, firstn_O, app_nil_r, firstn_all. reflexivity. }
  subst args. rewrite Hw in *. clear Hw. rewrite En2. clear En2.
  rewrite !Forall_cons_iff in HF. destruct HF as (F1 & F2 & F3 & F4 & F5 & F6 & F7 & F8 & _). rewrite Es in F1, F2, F3, F4, F5, F6, F7, F8.
  assert (Hb : begins_blank w -> gap_here (w ++ b2 ++ s2) = true).
  { intros (c & u & -> & Hc). cbn [app gap_here]. rewrite Hc. reflexivity. }
  cbv zeta. split; [|split; [|split; [|split]]].
  - intros [K|K] B; apply Hb in B.
    + rewrite (label_failed name (w ++ b2 ++ s2) (length P) K Hv2 F4) in B. discriminate.
    + rewrite (env_failed name (w ++ b2 ++ s2) (length P) K Hv2 F8) in B. discriminate.
  - intros K B. apply Hb in B. apply Hidle. destruct K as [K|[K|K]].
    + eapply (command_failed "run" R_run); eauto; reflexivity.
    + eapply (command_failed "cmd" R_cmd); eauto; reflexivity.
    + eapply (command_failed "entrypoint" R_entrypoint); eauto; reflexivity.
  - intros K k g c u E Hg Hne2. rewrite E in F3, Hv2. rewrite <- app_assoc in F3, Hv2. cbn [app] in F3, Hv2.
    rewrite (valid_gap k) in Hv2 by exact Hg. eapply arg_failed; eassumption.
  - intros K k g c u E Hg Hne2. rewrite E in F1, Hv2. rewrite <- app_assoc in F1, Hv2. cbn [app] in F1, Hv2.
    rewrite (valid_gap k) in Hv2 by exact Hg. eapply from_failed; eassumption.
  - intros K k g v k2 g2 c u E Hg Hne2 Hword Hsolid Hback Hg2 Hne3 Hc. rewrite E in F5, Hv2. rewrite <- !app_assoc in F5, Hv2. cbn [app] in F5, Hv2.
    rewrite (valid_gap k) in Hv2 by exact Hg. exact (copy_failed name k g v k2 g2 c _ (length P) K Hg Hne2 Hword Hsolid Hback Hg2 Hne3 Hc Hv2 F5).
Qed.

(** Each of the names, as an unknown instruction with arguments that begin with a blank *)
Example C11_passed_over_case : reads (lines ["RUN  "; "cmd  "; "ARG 1"; "FROM ""x"""; "FROM --a=b"; "COPY x"; "COPY --from=x y"; "ENTRYPOINT \"; "# none"]%string)
  (fun d => map (fun i => match i with IMisc m => to_lower (ss_content (misc_name m)) | _ => [] end) (d_instructions d) =
    [bs "run"; bs "cmd"; bs "arg"; bs "from"; bs "from"; bs "copy"; bs "copy"; bs "entrypoint"]).
Proof. split; [vm_compute; reflexivity|]. eexists. split; vm_compute; reflexivity. Qed.

Print Assumptions C51_local.
Print Assumptions C11_clear.
Print Assumptions C11_passed_over_partial.
