(** Documents written without ambiguity (C38), and editing them (C39, C43).  The
    class of documents is defined in SpecClear.v; [unq] stands for the unquoting
    function of the enquote crate. *)

From Coq Require Import String Permutation.
From Verif Require Import Bytes BytesFacts Grammar Peg Result Ast Image Convert Dockerfile Enquote Splicer
  SpecImage ImageFacts SpecSplice SplicerFacts SpecDoc DocFacts SpecSyntax SpecClear SpecMove SpecParts PropsDoc PropsParse
  PegRules Forward ListFacts Forward5 MoveFacts EditFacts ParseEdit.
Local Open Scope nat_scope.

(** ** C38 *)
Theorem C38_complete unq input l : valid_utf8 input = true -> clear_document unq input l ->
  exists d, parse unq input = Ok d /\ d_content d = input /\ d_instructions d = numbered 0 l /\
    exists pre, before_first_from (d_instructions d) pre /\ d_global_args d = args_among pre.
Proof.
  intros Hv H. destruct (parse_complete unq input l Hv H) as (d & E & Ec & El). exists d.
  split; [exact E|]. split; [exact Ec|]. split; [exact El|]. apply (parse_global_args _ _ _ E).
Qed.

(** The text determines the instructions, up to the numbers of FROM. *)
Theorem C38_unambiguous unq input l1 l2 : valid_utf8 input = true -> clear_document unq input l1 ->
  clear_document unq input l2 -> numbered 0 l1 = numbered 0 l2.
Proof.
  intros Hv H1 H2. destruct (parse_complete unq input l1 Hv H1) as (d & E & _ & <-).
  destruct (parse_complete unq input l2 Hv H2) as (d2 & E2 & _ & <-). congruence.
Qed.

(** A document with all kinds of instructions, continuations and comments *)
Definition written : bytes := lines [
  "ARG v=1";
  "";
  "from \";
  "  # base";
  "  --platform=x r.io/a:1 AS b  ";
  "RUN echo a \";
  "# note";
  "  b";
  "	# about the files";
  "COPY --from=b x y";
  "LABEL a=b c=""d"" ";
  "ENV k v w";
  "env K=""1"" L=2";
  "ENTRYPOINT [ ""sh"", ""-c"" ]";
  "CMD go";
  "EXPOSE 80"]%string.

Lemma no_backslash w : existsb (N.eqb BSLASH) w = false -> ~ ends_in_backslash w.
Proof.
  intros H (t & b & -> & _). rewrite existsb_app in H. apply orb_false_iff in H. destruct H as [_ H]. discriminate.
Qed.
Lemma not_comment_like w : match drop_while is_blank w with c :: _ => c <> HASH | [] => True end -> ~ comment_like w.
Proof.
  intros H (b & t & -> & Hb). induction Hb as [|x b Hx Hb IH]; cbn [app drop_while] in H; [apply H; reflexivity|].
  rewrite Hx in H. apply IH. exact H.
Qed.
Lemma gap_blanks b : forallb is_blank b = true -> gap 0 b.
Proof.
  induction b as [|c b IH]; cbn; [constructor|]. intros H. apply andb_true_iff in H. destruct H. constructor; auto.
Qed.
Lemma quoted_simple q b : (q = DQUOTE \/ q = SQUOTE) -> valid_utf8 b = true ->
  forallb (fun c => negb ((c =? q) || (c =? BSLASH) || (c =? 0) || (c =? 31))%N) b = true -> quoted_text (q :: b ++ [q]).
Proof.
  intros Hq Hv H. exists q, b. split; [exact Hq|]. split; [reflexivity|]. split; [|exact Hv]. clear Hv.
  induction b as [|c b IH]; [constructor|]. cbn [forallb] in H. apply andb_true_iff in H. destruct H as [H1 H2].
  rewrite negb_true_iff, !orb_false_iff, !N.eqb_neq in H1. constructor; try tauto.
Qed.

Ltac bytes_of s := let x := eval vm_compute in (bs s) in x.
Ltac easy_text :=
  first
    [ exact I | reflexivity | discriminate
    | apply no_backslash; reflexivity
    | apply not_comment_like; vm_compute; discriminate
    | apply gap_blanks; reflexivity
    | solve [repeat constructor]
    | solve [repeat constructor; discriminate]
    | intros (?t & ?E); discriminate
    | intros [(?t & ?E)|(?t & ?E)]; discriminate
    | intros ?t ?E; discriminate ].

Section Written.
Notation unq := enquote_unquote.

Lemma not_quoted c t : (c =? DQUOTE)%N || (c =? SQUOTE)%N || (c =? BACKTICK)%N = false -> ~ begins_quoted (c :: t).
Proof.
  intros H (x & u & E & K). injection E as <- <-. rewrite !orb_false_iff, !N.eqb_neq in H. tauto.
Qed.
Lemma string_plain p c t : (c =? DQUOTE)%N || (c =? SQUOTE)%N || (c =? BACKTICK)%N = false ->
  string_at unq p (c :: t) (SpannedString (at_ p (c :: t)) (c :: t)).
Proof. intros H. exists (c :: t). split; [|reflexivity]. right. split; [apply not_quoted; exact H|reflexivity]. Qed.
Lemma chunk_simple w : w <> [] -> forallb (fun c => negb (is_newline_byte c)) w = true -> valid_utf8 w = true -> chunk w.
Proof.
  intros H1 H2 H3. split; [exact H1|]. split; [|exact H3]. apply Forall_forall. intros c Hc.
  rewrite forallb_forall in H2. apply H2 in Hc. apply negb_true_iff in Hc. exact Hc.
Qed.
Lemma comment_simple t : forallb (fun c => negb (is_newline_byte c)) t = true -> valid_utf8 t = true -> comment_text (HASH :: t).
Proof.
  intros H2 H3. exists t. split; [reflexivity|]. split; [|exact H3]. apply Forall_forall. intros c Hc.
  rewrite forallb_forall in H2. apply H2 in Hc. apply negb_true_iff in Hc. exact Hc.
Qed.

Definition a_line (p : nat) (w : bytes) : Prop := exists l, clear_line_at unq p w l.

Ltac plain_value := split; [split; easy_text|split; easy_text].

Lemma line_arg p : a_line p (bs "ARG v=1").
Proof.
  eexists. eapply (clear_closed unq p [] (bs "ARG v=1") [] (IArg (ArgInstruction _ _ _))); [constructor| |constructor].
  exists (bs "ARG"), 0, (bs " "), (bs "v"), (bs "=1").
  do 4 (split; [easy_text|]). split; [exists 118%N, []; split; [reflexivity|]; easy_text|]. do 2 (split; [easy_text|]). right.
  exists (bs "1"). eexists. split; [easy_text|].
  split; [right; plain_value|]. split; [|easy_text]. apply string_plain. reflexivity.
Qed.

Lemma line_empty p : a_line p [].
Proof. exists []. repeat constructor. Qed.

Definition from_gap : bytes := bs " \" ++ [LF] ++ bs "  # base" ++ [LF] ++ bs "  ".
Lemma from_gap_ok : gap 1 from_gap.
Proof.
  apply (gap_blank 1 32%N); [reflexivity|].
  apply (gap_continue 1 0 [BSLASH; LF] (bs "  # base" ++ [LF]) (bs "  ")); [exists [], [LF]; repeat constructor| |easy_text].
  apply (skipped_comment 0 (bs "  ") (bs "# base") [LF] []); [easy_text|apply comment_simple; reflexivity|constructor|constructor].
Qed.

Lemma line_from p : a_line p (bs "from" ++ from_gap ++ bs "--platform=x r.io/a:1 AS b  ").
Proof.
  eexists. eapply (clear_closed unq p [] (bs "from" ++ from_gap ++ bs "--platform=x r.io/a:1 AS b") (bs "  ")
    (IFrom (FromInstruction _ _ _ _ 0 _))); [constructor| |easy_text].
  exists (bs "from"), (from_gap ++ bs "--platform=x"), 0, (bs " "), (bs "r.io/a:1"), (bs " AS b").
  split; [reflexivity|]. split; [easy_text|]. split.
  { eapply (spaced_one _ _ 1 from_gap (bs "--platform=x") (Flag _ _ _) [] []); [apply from_gap_ok|discriminate| |constructor].
    split; [|easy_text]. exists (bs "platform"), (bs "x"). eexists. split; [reflexivity|]. split; [split; easy_text|].
    split; [split; easy_text|]. split; [apply string_plain; reflexivity|reflexivity]. }
  split; [easy_text|]. split; [easy_text|]. split; [split; easy_text|]. split; [easy_text|]. split; [reflexivity|].
  split; [apply image_parse_spec; reflexivity|]. split; [vm_compute; discriminate|]. split; [|reflexivity].
  right. exists 0, (bs " "), (bs "AS"), 0, (bs " "), (bs "b"). repeat split; easy_text.
Qed.

Lemma line_run p : a_line p (bs "RUN " ++ bs "echo a " ++ [BSLASH; LF] ++ bs "# note" ++ [LF] ++ bs "  b").
Proof.
  eexists. eapply (clear_open unq p [] (bs "RUN " ++ bs "echo a " ++ [BSLASH; LF] ++ bs "# note" ++ [LF] ++ bs "  b")
    (IRun (RunInstruction _ _))); [constructor|].
  exists (bs "RUN"), (bs " "), (bs "echo a " ++ [BSLASH; LF] ++ bs "# note" ++ [LF] ++ bs "  b"). eexists.
  split; [reflexivity|]. split; [easy_text|]. split; [easy_text|]. split; [easy_text|].
  split; [eexists; eexists; split; [reflexivity|repeat split; discriminate]|].
  split; [apply not_begins_list; [discriminate|intros (b & c & t & E & _); discriminate]|]. split; [|split; reflexivity].
  eexists. split; [|reflexivity].
  apply clear_continued; [apply chunk_simple; easy_text|easy_text|exists [], [LF]; repeat constructor|].
  apply (clear_after_comment _ [] (bs "# note") [LF] (bs "  b")); [constructor|apply comment_simple; reflexivity|constructor|].
  apply clear_text; [apply chunk_simple; easy_text|easy_text|easy_text].
Qed.

Lemma line_comment p : a_line p (TAB :: bs "# about the files").
Proof. exists []. apply (SpecClear.clear_comment unq p [TAB]); [repeat constructor|apply comment_simple; reflexivity]. Qed.

Lemma line_copy p : a_line p (bs "COPY --from=b x y").
Proof.
  eexists. eapply (clear_closed unq p [] (bs "COPY --from=b x y") [] (ICopy (CopyInstruction _ _ [_] _))); [constructor| |constructor].
  exists (bs "COPY"), (bs " --from=b"), (bs " x y"). split; [reflexivity|]. split; [easy_text|]. split.
  { eapply (spaced_one _ _ 0 (bs " ") (bs "--from=b") (Flag _ _ _) [] []); [easy_text|discriminate| |constructor].
    split; [|easy_text]. exists (bs "from"), (bs "b"). eexists. split; [reflexivity|]. split; [split; easy_text|].
    split; [split; easy_text|]. split; [apply string_plain; reflexivity|reflexivity]. }
  split; [|split; [discriminate|reflexivity]].
  eapply (spaced_one _ _ 0 (bs " ") (bs "x") _ (bs " y") [_]); [easy_text|discriminate| |].
  { split; [split; [split; easy_text|apply string_plain; reflexivity]|].
    split; [eexists; eexists; split; [reflexivity|repeat split; discriminate]|]. split; [easy_text|]. intros t E. discriminate. }
  eapply (spaced_one _ _ 0 (bs " ") (bs "y") _ [] []); [easy_text|discriminate| |constructor].
  split; [split; [split; easy_text|apply string_plain; reflexivity]|].
  split; [eexists; eexists; split; [reflexivity|repeat split; discriminate]|]. split; [easy_text|]. intros t E. discriminate.
Qed.

Lemma line_label p : a_line p (bs "LABEL a=b c=""d"" ").
Proof.
  eexists. eapply (clear_open unq p [] (bs "LABEL a=b c=""d"" ") (ILabel (LabelInstruction _ _))); [constructor|].
  exists (bs "LABEL"), (bs " a=b c=""d"""), (bs " "). split; [reflexivity|]. split; [easy_text|]. split; [reflexivity|].
  split; [|split; [easy_text|discriminate]].
  eapply (spaced_one _ _ 0 (bs " ") (bs "a=b") (Label _ _ _) (bs " c=""d""") [_]); [easy_text|discriminate| |].
  { exists (bs "a"), (bs "b"). split; [reflexivity|].
    split; [right; split; [split; easy_text|]; split; [eexists; eexists; split; [reflexivity|repeat split; discriminate]|];
      split; [easy_text|apply string_plain; reflexivity]|].
    split; [right; split; [plain_value|apply string_plain; reflexivity]|reflexivity]. }
  eapply (spaced_one _ _ 0 (bs " ") (bs "c=""d""") (Label _ _ _) [] []); [easy_text|discriminate| |constructor].
  exists (bs "c"), (bs """d"""). split; [reflexivity|].
  split; [right; split; [split; easy_text|]; split; [eexists; eexists; split; [reflexivity|repeat split; discriminate]|];
    split; [easy_text|apply string_plain; reflexivity]|].
  split; [|reflexivity]. left. exists (bs """d"""), (bs "d").
  split; [apply (quoted_simple DQUOTE (bs "d")); [left; reflexivity|reflexivity|reflexivity]|].
  split; [repeat (apply wb_char; [intros t E; discriminate|]); constructor|]. split; reflexivity.
Qed.

Lemma line_env p : a_line p (bs "ENV k v w").
Proof.
  eexists. eapply (clear_open unq p [] (bs "ENV k v w") (IEnv _)); [constructor|]. right.
  exists (bs "ENV"), 0, (bs " "), (bs "k"), 0, (bs " "), (bs "v w"). eexists (EnvVar _ _ _).
  split; [reflexivity|]. do 5 (split; [easy_text|]). split; [split; easy_text|]. split; [reflexivity|].
  split; [eexists; eexists; split; [reflexivity|repeat split; discriminate]|]. split; [easy_text|].
  split; [|split; reflexivity]. eexists. split; [|reflexivity].
  apply clear_text; [apply chunk_simple; easy_text|easy_text|easy_text].
Qed.

Lemma line_envs p : a_line p (bs "env K=""1"" L=2").
Proof.
  eexists. eapply (clear_open unq p [] (bs "env K=""1"" L=2") (IEnv (EnvInstruction _ _))); [constructor|]. left.
  exists (bs "env"), (bs " K=""1"" L=2"), []. split; [reflexivity|]. split; [easy_text|]. split; [reflexivity|].
  split; [|split; [constructor|discriminate]].
  eapply (spaced_one _ _ 0 (bs " ") (bs "K=""1""") (EnvVar _ _ _) (bs " L=2") [_]); [easy_text|discriminate| |].
  { exists (bs "K"), (bs """1"""). split; [reflexivity|]. split; [split; easy_text|]. split; [reflexivity|].
    split; [|reflexivity]. left. exists (bs "1"). split; [|split; reflexivity].
    apply (quoted_simple DQUOTE (bs "1")); [left; reflexivity|reflexivity|reflexivity]. }
  eapply (spaced_one _ _ 0 (bs " ") (bs "L=2") (EnvVar _ _ _) [] []); [easy_text|discriminate| |constructor].
  exists (bs "L"), (bs "2"). split; [reflexivity|]. split; [split; easy_text|]. split; [reflexivity|].
  split; [|reflexivity]. right. split; [plain_value|reflexivity].
Qed.

Lemma line_entrypoint p : a_line p (bs "ENTRYPOINT [ ""sh"", ""-c"" ]").
Proof.
  eexists. eapply (clear_closed unq p [] (bs "ENTRYPOINT [ ""sh"", ""-c"" ]") [] (IEntrypoint (EntrypointInstruction _ _)));
    [constructor| |constructor].
  exists (bs "ENTRYPOINT"), (bs " "), (bs "[ ""sh"", ""-c"" ]"). eexists.
  split; [reflexivity|]. split; [easy_text|]. split; [easy_text|]. split; [easy_text|]. split; [|split; reflexivity].
  eapply (array_strings unq _ 0 (bs " ") (bs """sh""") _ (bs ", ""-c""") _ [] 0 (bs " ")); [easy_text| | | |left; reflexivity|easy_text|reflexivity].
  - apply (quoted_simple DQUOTE (bs "sh")); [left; reflexivity|reflexivity|reflexivity].
  - exists (bs "sh"). split; [|reflexivity]. left. split; [|reflexivity].
    exists DQUOTE, (bs "sh"""). auto.
  - eapply (more_one unq _ 0 [] 0 (bs " ") (bs """-c""") _ [] []); [constructor|easy_text| | |constructor].
    + apply (quoted_simple DQUOTE (bs "-c")); [left; reflexivity|reflexivity|reflexivity].
    + exists (bs "-c"). split; [|reflexivity]. left. split; [|reflexivity]. exists DQUOTE, (bs "-c"""). auto.
Qed.

Lemma line_cmd p : a_line p (bs "CMD go").
Proof.
  eexists. eapply (clear_open unq p [] (bs "CMD go") (ICmd (CmdInstruction _ _))); [constructor|].
  exists (bs "CMD"), (bs " "), (bs "go"). eexists.
  split; [reflexivity|]. split; [easy_text|]. split; [easy_text|]. split; [easy_text|].
  split; [eexists; eexists; split; [reflexivity|repeat split; discriminate]|].
  split; [apply not_begins_list; [discriminate|intros (b & c & t & E & _); discriminate]|]. split; [|split; reflexivity].
  eexists. split; [|reflexivity]. apply clear_text; [apply chunk_simple; easy_text|easy_text|easy_text].
Qed.

Lemma line_expose p : a_line p (bs "EXPOSE 80").
Proof.
  eexists. eapply (clear_open unq p [] (bs "EXPOSE 80") (IMisc (MiscInstruction _ _ _))); [constructor|].
  exists (bs "EXPOSE"), (bs " 80"). split; [reflexivity|]. split; [split; easy_text|].
  split; [intros k Hk E; cbn in Hk; repeat (destruct Hk as [<-|Hk]; [discriminate|]); contradiction|].
  split; [reflexivity|]. split; [easy_text|]. split; [reflexivity|]. split; [|reflexivity].
  eexists. split; [|reflexivity]. apply clear_text; [apply chunk_simple; easy_text|easy_text|easy_text].
Qed.

Lemma next_line p w w2 : a_line p w -> (forall q, exists l, clear_document_at unq q w2 l) ->
  exists l, clear_document_at unq p (w ++ [LF] ++ w2) l.
Proof. intros [l H] K. destruct (K (p + length w + 1)) as [l2 H2]. exists (l ++ l2). apply clear_more; [exact H|constructor|exact H2]. Qed.

Lemma written_clear : clearly_written unq written.
Proof.
  split; [vm_compute; reflexivity|]. unfold clear_document. generalize 0 as p.
  intros p. apply (next_line p (bs "ARG v=1")); [apply line_arg|]. clear p.
  intros p. apply (next_line p []); [apply line_empty|]. clear p.
  intros p. apply (next_line p (bs "from" ++ from_gap ++ bs "--platform=x r.io/a:1 AS b  ")); [apply line_from|]. clear p.
  intros p. apply (next_line p (bs "RUN " ++ bs "echo a " ++ [BSLASH; LF] ++ bs "# note" ++ [LF] ++ bs "  b")); [apply line_run|]. clear p.
  intros p. apply (next_line p (TAB :: bs "# about the files")); [apply line_comment|]. clear p.
  intros p. apply (next_line p (bs "COPY --from=b x y")); [apply line_copy|]. clear p.
  intros p. apply (next_line p (bs "LABEL a=b c=""d"" ")); [apply line_label|]. clear p.
  intros p. apply (next_line p (bs "ENV k v w")); [apply line_env|]. clear p.
  intros p. apply (next_line p (bs "env K=""1"" L=2")); [apply line_envs|]. clear p.
  intros p. apply (next_line p (bs "ENTRYPOINT [ ""sh"", ""-c"" ]")); [apply line_entrypoint|]. clear p.
  intros p. apply (next_line p (bs "CMD go")); [apply line_cmd|]. clear p.
  intros p. apply (next_line p (bs "EXPOSE 80")); [apply line_expose|]. clear p.
  intros p. destruct (line_empty p) as [l H]. exists l. constructor. exact H.
Qed.

End Written.

Example C38_case : clearly_written enquote_unquote written /\
  reads written (fun d => length (d_instructions d) = 10 /\ length (d_global_args d) = 1).
Proof.
  split; [exact written_clear|]. split; [vm_compute; reflexivity|]. eexists. split; [vm_compute; reflexivity|].
  split; reflexivity.
Qed.

(** ** C39 *)

Lemma image_sliceable unq input d f : valid_utf8 input = true -> parse unq input = Ok d -> In (IFrom f) (d_instructions d) ->
  sliceable input (ss_span (from_image f)).
Proof.
  intros Hv E Hf. pose proof (C03_spans_sliceable unq input d (IFrom f) (string_part (from_image f)) Hv E Hf) as K.
  rewrite (C02_content _ _ _ E) in K. apply K. right. cbn [parts]. rewrite !flat_map_app. apply in_or_app. right. left. reflexivity.
Qed.

(** Any choice of new images, spliced in any order over the images of the document,
    then parsed again: the chosen images are new, and all else is as before, only
    moved. *)
Theorem C39_rewrite_images unq input d choose ops : clearly_written unq input -> parse unq input = Ok d ->
  (forall f t r, In (IFrom f) (d_instructions d) -> choose f = Some (t, r) -> image_ok t r) ->
  fits input (image_edits choose (d_instructions d)) -> Permutation (image_edits choose (d_instructions d)) ops ->
  exists st d', splice_all (splicer_from d) ops = Ok st /\ parse unq (sp_content st) = Ok d' /\
    (forall g, g = after_edits (image_edits choose (d_instructions d)) ->
      d_instructions d' = map (with_new_image choose g) (d_instructions d) /\
      d_global_args d' = map (move_arg g) (d_global_args d)) /\
    clearly_written unq (sp_content st).
Proof.
  intros Hc E Hok Hfit Hp. destruct (parse_clear unq input Hc) as (d0 & E0 & Ec & Hd & Hn).
  assert (d0 = d) by congruence. subst d0. clear E0. destruct Hc as [Hv _].
  pose proof (images_in_order unq choose 0 _ _ Hd) as Ho. cbn [Nat.add] in Ho.
  destruct (splice_disjoint input (image_edits choose (d_instructions d)) ops Hv Ho) as (st & Es & Et & Eu); [|exact Hfit|exact Hp|].
  { intros e He. unfold image_edits in He. apply in_flat_map in He. destruct He as (i & Hi & He).
    destruct i as [f| | | | | | | |]; try contradiction. cbn [image_edit] in He. destruct (choose f) as [[t r]|] eqn:Ef; [|contradiction].
    destruct He as [<-|[]]. cbn [fst snd]. split; [apply (image_sliceable unq input d f Hv E Hi)|].
    destruct (Hok f t r Hi Ef) as [Ht _]. apply PartsFacts.image_text_valid. exact Ht. }
  exists st. pose proof (rewrite_images unq choose input (d_instructions d) [] Hok Hd) as K. cbn [map app] in K.
  rewrite <- Et in K. destruct (parse_complete unq _ _ Eu K) as (d' & E' & _ & El').
  exists d'. split; [unfold splicer_from; rewrite Ec; exact Es|]. split; [exact E'|]. split.
  - intros g ->. assert (El : d_instructions d' = map (with_new_image choose (after_edits (image_edits choose (d_instructions d)))) (d_instructions d)).
    { rewrite El'. apply numbered_fixed; [|exact Hn]. intros i. destruct i as [f| | | | | | | |]; try reflexivity. cbn.
      destruct (choose f) as [[t r]|]; reflexivity. }
    split; [exact El|]. apply (global_args_map unq input (sp_content st) d d' _ _ (with_new_image_only choose _) E E' El).
  - split; [exact Eu|]. eexists. exact K.
Qed.

Lemma numbered_range n l : numbered n l = l -> forall f, In (IFrom f) l -> n <= from_index f < n + count_from l.
Proof.
  revert n. induction l as [|i l IH]; intros n H f Hf; [contradiction|].
  destruct i as [f0|x|x|x|x|x|x|x|x]; cbn [numbered] in H.
  - injection H as H1 H2. unfold count_from. cbn [filter is_from_b length]. fold (count_from l). destruct Hf as [E|Hf].
    + injection E as ->. rewrite <- H1. cbn [from_index]. lia.
    + specialize (IH _ H2 f Hf). lia.
  - destruct Hf as [Hf|Hf]; [discriminate|]. injection H as H. apply (IH n H f Hf).
  - destruct Hf as [Hf|Hf]; [discriminate|]. injection H as H. apply (IH n H f Hf).
  - destruct Hf as [Hf|Hf]; [discriminate|]. injection H as H. apply (IH n H f Hf).
  - destruct Hf as [Hf|Hf]; [discriminate|]. injection H as H. apply (IH n H f Hf).
  - destruct Hf as [Hf|Hf]; [discriminate|]. injection H as H. apply (IH n H f Hf).
  - destruct Hf as [Hf|Hf]; [discriminate|]. injection H as H. apply (IH n H f Hf).
  - destruct Hf as [Hf|Hf]; [discriminate|]. injection H as H. apply (IH n H f Hf).
  - destruct Hf as [Hf|Hf]; [discriminate|]. injection H as H. apply (IH n H f Hf).
Qed.

Lemma app_same_list {A} (a b c d : list A) : a ++ b = c ++ d -> length a = length c -> a = c /\ b = d.
Proof.
  revert c. induction a as [|x a IH]; intros [|y c] E L; try discriminate; [auto|]. cbn in *. injection E as -> E.
  destruct (IH c E) as [-> ->]; [lia|]. auto.
Qed.
Lemma numbered_length n l : length (numbered n l) = length l.
Proof. revert n. induction l as [|i l IH]; intros n; [reflexivity|]. destruct i; cbn; rewrite IH; reflexivity. Qed.

(** One image *)
Theorem C39_rewrite_image unq input d l1 f l2 new r : clearly_written unq input -> parse unq input = Ok d ->
  d_instructions d = l1 ++ IFrom f :: l2 -> image_ok new r -> fits input [(ss_span (from_image f), new)] ->
  exists st d', splice (splicer_from d) (ss_span (from_image f)) new = Ok st /\ parse unq (sp_content st) = Ok d' /\
    sp_content st = firstn (s_start (ss_span (from_image f))) input ++ new ++ skipn (s_end (ss_span (from_image f))) input /\
    (forall g, g = replacement (s_start (ss_span (from_image f))) (s_end (ss_span (from_image f))) (length new) ->
      d_instructions d' =
        map (move_instruction g) l1 ++ IFrom (with_image (move_from g f) new r) :: map (move_instruction g) l2 /\
      d_global_args d' = map (move_arg g) (d_global_args d)) /\
    clearly_written unq (sp_content st).
Proof.
  intros Hc E El Hok Hfit. set (choose := fun f' => if from_index f' =? from_index f then Some (new, r) else None).
  destruct (parse_clear unq input Hc) as (d0 & E0 & Ec & Hd & Hn).
  assert (d0 = d) by congruence. subst d0. clear E0. rewrite El in Hn. rewrite numbered_app in Hn. cbn [numbered] in Hn.
  apply app_same_list in Hn; [|apply numbered_length]. destruct Hn as [Hn1 Hn2]. injection Hn2 as Hn2 Hn3. cbn [Nat.add] in *.
  assert (Ef : from_index f = count_from l1) by (rewrite <- Hn2; reflexivity).
  assert (Hother : forall f', In (IFrom f') l1 \/ In (IFrom f') l2 -> choose f' = None).
  { intros f' Hf'. unfold choose. destruct (Nat.eqb_spec (from_index f') (from_index f)) as [K|]; [|reflexivity]. exfalso.
    destruct Hf' as [Hf'|Hf']; [apply (numbered_range 0 l1 Hn1) in Hf'|apply (numbered_range _ l2 Hn3) in Hf']; lia. }
  assert (Hself : choose f = Some (new, r)) by (unfold choose; rewrite Nat.eqb_refl; reflexivity).
  assert (Hnone : forall l, (forall f', In (IFrom f') l -> choose f' = None) -> image_edits choose l = []).
  { induction l as [|i l IH]; intros H; [reflexivity|]. unfold image_edits in *. cbn [flat_map]. rewrite IH by (intros; apply H; right; assumption).
    destruct i as [f'| | | | | | | |]; try reflexivity. cbn [image_edit]. rewrite (H f') by (left; reflexivity). reflexivity. }
  assert (Hmap : forall g l, (forall f', In (IFrom f') l -> choose f' = None) -> map (with_new_image choose g) l = map (move_instruction g) l).
  { intros g l H. apply map_ext_in. intros i Hi. destruct i as [f'| | | | | | | |]; try reflexivity. cbn. rewrite (H f' Hi). reflexivity. }
  assert (Ee : image_edits choose (d_instructions d) = [(ss_span (from_image f), new)]).
  { rewrite El. unfold image_edits. rewrite flat_map_app. cbn [flat_map image_edit]. rewrite Hself.
    pose proof (Hnone l1 (fun f' H => Hother f' (or_introl H))) as N1. pose proof (Hnone l2 (fun f' H => Hother f' (or_intror H))) as N2.
    unfold image_edits in N1, N2. rewrite N1, N2. reflexivity. }
  destruct (C39_rewrite_images unq input d choose [(ss_span (from_image f), new)] Hc E) as (st & d' & Es & E' & Hres & Hc').
  - intros f' t r' _. unfold choose. destruct (_ =? _); [|discriminate]. intros K. injection K as <- <-. exact Hok.
  - rewrite Ee. exact Hfit.
  - rewrite Ee. apply Permutation_refl.
  - exists st, d'. assert (Es' : splice (splicer_from d) (ss_span (from_image f)) new = Ok st).
    { unfold splice_all in Es. cbn [for_each fst snd] in Es. destruct (splice _ _ _); [exact Es|discriminate Es..]. }
    split; [exact Es'|]. split; [exact E'|]. split.
    { destruct (splice_disjoint input [(ss_span (from_image f), new)] [(ss_span (from_image f), new)]) as (st2 & Es2 & Et2 & _).
      - apply Hc.
      - rewrite <- Ee. pose proof (images_in_order unq choose 0 _ _ Hd) as Ho. exact Ho.
      - intros e [<-|[]]. cbn [fst snd]. split; [|apply PartsFacts.image_text_valid, Hok].
        apply (image_sliceable unq input d f (proj1 Hc) E). rewrite El. apply in_or_app. right. left. reflexivity.
      - exact Hfit.
      - apply Permutation_refl.
      - unfold splicer_from in Es. rewrite Ec in Es. unfold splicer_from_str in Es2. rewrite Es in Es2. injection Es2 as <-.
        rewrite Et2. cbn [replaced]. unfold slice. cbn [skipn]. rewrite Nat.sub_0_r. reflexivity. }
    split; [|exact Hc']. intros g Eg. destruct (Hres g) as [R1 R2]; [rewrite Ee, Eg; reflexivity|]. split; [|exact R2].
    rewrite R1, El, map_app. cbn [map with_new_image]. rewrite Hself.
    rewrite (Hmap g l1) by (intros; apply Hother; auto). rewrite (Hmap g l2) by (intros; apply Hother; auto). reflexivity.
Qed.

Example C39_case : image_ok (bs "alpine:3") (image_parse (bs "alpine:3")) /\
  fits written [(Span 40 48, bs "alpine:3")] /\
  reads written (fun d => exists f st d', In (IFrom f) (d_instructions d) /\ ss_span (from_image f) = Span 40 48 /\
    ss_content (from_image f) = bs "r.io/a:1" /\
    splice (splicer_from d) (Span 40 48) (bs "alpine:edge") = Ok st /\
    parse enquote_unquote (sp_content st) = Ok d' /\
    d_instructions d' = map (with_new_image (fun _ => Some (bs "alpine:edge", ImageRef None (bs "alpine") (Some (bs "edge")) None))
      (fun x => if x <=? 40 then x else x + 3)) (d_instructions d)).
Proof.
  split; [split; [split; easy_text|split; [easy_text|split; [apply image_parse_spec; reflexivity|vm_compute; discriminate]]]|].
  split; [reflexivity|]. split; [vm_compute; reflexivity|]. eexists. split; [vm_compute; reflexivity|].
  do 3 eexists. split; [right; left; reflexivity|]. split; [reflexivity|]. split; [reflexivity|].
  split; [vm_compute; reflexivity|]. split; [vm_compute; reflexivity|]. vm_compute. reflexivity.
Qed.

(** ** C43 *)
Theorem C43_insert_lines unq pre post k extra d : clearly_written unq (pre ++ post) -> ends_line pre -> skipped_lines k extra ->
  parse unq (pre ++ post) = Ok d -> (forall i, In i (d_instructions d) -> outside (length pre) i) ->
  parse unq (pre ++ extra ++ post) =
    Ok (move_dockerfile (insertion (length pre) (length extra)) (pre ++ extra ++ post) d) /\
  clearly_written unq (pre ++ extra ++ post).
Proof. exact (insert_lines unq pre post k extra d). Qed.

Theorem C43_remove_lines unq pre post k extra d : clearly_written unq (pre ++ extra ++ post) -> ends_line pre ->
  skipped_lines k extra -> parse unq (pre ++ extra ++ post) = Ok d ->
  (forall i, In i (d_instructions d) -> outside (length pre) i) ->
  parse unq (pre ++ post) = Ok (move_dockerfile (deletion (length pre) (length extra)) (pre ++ post) d) /\
  clearly_written unq (pre ++ post).
Proof. exact (remove_lines unq pre post k extra d). Qed.

(** Between ARG and FROM, and between FROM and RUN *)
Example C43_case : ends_line (firstn 8 written) /\ ends_line (firstn 56 written) /\
  skipped_lines 1 (bs "# new" ++ [LF] ++ bs "  " ++ [LF]) /\
  reads written (fun d => forall i, In i (d_instructions d) -> outside 8 i /\ outside 56 i).
Proof.
  split; [right; exists (bs "ARG v=1"), LF; split; reflexivity|].
  split; [right; exists (firstn 55 written), LF; split; reflexivity|].
  split; [apply (skipped_comment 0 [] (bs "# new") [LF] (bs "  " ++ [LF])); [constructor|apply comment_simple; reflexivity|constructor|];
    apply (skipped_empty 0 (bs "  ") [LF] []); [repeat constructor|constructor|constructor]|].
  split; [vm_compute; reflexivity|]. eexists. split; [vm_compute; reflexivity|].
  intros i Hi. cbn [d_instructions In] in Hi. unfold outside.
  repeat (destruct Hi as [<-|Hi]; [cbn; lia|]). contradiction.
Qed.

(** For documents outside that class it is false: here a comment line after the ENV
    becomes a part of its value. *)
Theorem C43_refuted : exists pre post extra d d',
  valid_utf8 (pre ++ post) = true /\ ends_line pre /\ skipped_lines 1 extra /\
  parse enquote_unquote (pre ++ post) = Ok d /\ (forall i, In i (d_instructions d) -> outside (length pre) i) /\
  parse enquote_unquote (pre ++ extra ++ post) = Ok d' /\
  d_instructions d' <> map (move_instruction (insertion (length pre) (length extra))) (d_instructions d) /\
  map (fun i => match i with IEnv x => map (fun v => display_breakable (ev_value v)) (env_vars x) | _ => [] end) (d_instructions d) = [[bs """foo"]; []] /\
  map (fun i => match i with IEnv x => map (fun v => display_breakable (ev_value v)) (env_vars x) | _ => [] end) (d_instructions d') =
    [[bs "foo" ++ [LF] ++ bs "# "]; []].
Proof.
  exists (bs "ENV a ""foo" ++ [LF]), (bs "FROM x"), (bs "# """ ++ [LF]). do 2 eexists.
  split; [reflexivity|]. split; [right; exists (bs "ENV a ""foo"), LF; split; reflexivity|].
  split; [apply (skipped_comment 0 [] (bs "# """) [LF] []); [constructor|apply comment_simple; reflexivity|constructor|constructor]|].
  split; [vm_compute; reflexivity|].
  split; [intros i Hi; cbn [d_instructions In] in Hi; unfold outside; repeat (destruct Hi as [<-|Hi]; [cbn; lia|]); contradiction|].
  split; [vm_compute; reflexivity|]. split; [vm_compute; discriminate|]. split; vm_compute; reflexivity.
Qed.

(** ** C46 *)
Theorem C46_joined unq a n b da db : clearly_written unq a -> clearly_written unq b -> newline n ->
  parse unq a = Ok da -> parse unq b = Ok db ->
  clearly_written unq (a ++ n ++ b) /\
  exists d, parse unq (a ++ n ++ b) = Ok d /\ d_content d = a ++ n ++ b /\
    d_instructions d = d_instructions da ++
      map (later (length (a ++ n)) (count_from (d_instructions da))) (d_instructions db) /\
    d_global_args d = d_global_args da ++
      (if existsb is_from_b (d_instructions da) then []
       else map (move_arg (fun x => length (a ++ n) + x)) (d_global_args db)).
Proof.
  intros Ha Hb Hn Ea Eb. destruct (join_documents unq a n b da db Ha Hb Hn Ea Eb) as (Hc & d & E & Ec & El).
  split; [exact Hc|]. exists d. split; [exact E|]. split; [exact Ec|]. split; [exact El|].
  exact (join_args _ _ _ _ _ _ _ _ _ E Ea Eb El).
Qed.

(** The document of [written] twice: the second FROM is number 1. *)
Example C46_case : clearly_written enquote_unquote (written ++ [LF] ++ written) /\
  reads (written ++ [LF] ++ written) (fun d =>
    map (fun i => match i with IFrom f => [from_index f] | _ => [] end) (d_instructions d) =
      let l := [[]; [0]; []; []; []; []; []; []; []; []] in
      l ++ match l with [] => [] | _ :: r => [] :: [1] :: tl r end).
Proof.
  pose proof written_clear as Hw. destruct (parse_clear _ _ Hw) as (d & E & _).
  split; [apply (C46_joined _ written [LF] written d d); try assumption; constructor|].
  split; [vm_compute; reflexivity|]. eexists. split; [vm_compute; reflexivity|]. vm_compute. reflexivity.
Qed.

Print Assumptions C46_joined.
Print Assumptions C38_complete.
Print Assumptions C38_unambiguous.
Print Assumptions C39_rewrite_images.
Print Assumptions C39_rewrite_image.
Print Assumptions C43_insert_lines.
Print Assumptions C43_remove_lines.
Print Assumptions C43_refuted.
