(** The programs of examples/ (C47, C55). *)

From Coq Require Import String Permutation.
From Verif Require Import Bytes BytesFacts Result Ast Image Dockerfile Enquote Splicer Stage Programs
  SpecImage ImageFacts SpecSplice SplicerFacts SpecDoc DocFacts SpecStage SpecSyntax SpecMove SpecParts ParseFacts PropsDoc PropsParse
  ParseEdit PropsComplete RewriteFacts PropsRewrite PropsStage.
Local Open Scope nat_scope.

Definition test_image : image_ref := ImageRef None (bs "splice") (Some (bs "test")) None.
Definition all_test (_ : from_instruction) : option (bytes * image_ref) := Some (bs "splice:test", test_image).

Lemma test_image_accepted : image_accepted (bs "splice:test") test_image.
Proof. split; [split; easy_text|]. split; [apply image_parse_spec; reflexivity|]. discriminate. Qed.

Lemma splice_loop l : forall st, for_each splice_step l st = splice_all st (image_edits all_test l).
Proof.
  induction l as [|i l IH]; intros st; [reflexivity|]. unfold splice_all, image_edits in *. cbn [for_each flat_map].
  destruct i; cbn [splice_step image_edit all_test app for_each fst snd bind]; try apply IH.
  destruct (splice st _ _); cbn [bind]; [apply IH|reflexivity..].
Qed.

(** examples/splice.rs: for a file that parses, the program prints the file with
    every image replaced; what it prints, without the line feed that [println!] adds,
    parses, every image in it is splice:test, and all else is as before, only moved. *)
Theorem C47_splice_program unq input d evs tail :
  steady evs -> (tail = [] \/ exists t, tail = Chunk [] :: t) -> input = delivered evs -> valid_utf8 input = true ->
  parse unq input = Ok d -> fits input (image_edits all_test (d_instructions d)) ->
  exists out, splice_program unq (evs ++ tail) = Ok (out ++ [LF]) /\
    out = replaced input 0 (image_edits all_test (d_instructions d)) /\
    forall g, g = after_edits (image_edits all_test (d_instructions d)) ->
      parse unq out = Ok (Dockerfile out (map (move_arg g) (d_global_args d))
        (map (with_new_image all_test g) (d_instructions d))).
Proof.
  intros Hs Ht Ei Hv E Hfit. unfold splice_program. rewrite (C02_from_reader unq evs tail Hs Ht), <- Ei, Hv, E. cbn [bind].
  rewrite splice_loop.
  assert (Hok : forall f t r, In (IFrom f) (d_instructions d) -> all_test f = Some (t, r) -> image_accepted t r).
  { intros f t r _ K. injection K as <- <-. exact test_image_accepted. }
  destruct (C39_any_images unq input d all_test _ Hv E Hok Hfit (Permutation_refl _)) as (st & Es & Hv2 & H).
  rewrite Es. exists (sp_content st). split; [reflexivity|]. split; [|exact H].
  pose proof (images_in_order_any unq all_test input d Hv E) as Ho.
  destruct (splice_disjoint input (image_edits all_test (d_instructions d)) (image_edits all_test (d_instructions d)) Hv Ho) as (st' & Es' & Et & _).
  - intros e He. unfold image_edits in He. apply in_flat_map in He. destruct He as (i & Hi & He).
    destruct i as [f| | | | | | | |]; try contradiction. cbn [image_edit all_test] in He. destruct He as [<-|[]]. cbn [fst snd].
    split; [apply (image_sliceable unq input d f Hv E Hi)|reflexivity].
  - exact Hfit.
  - apply Permutation_refl.
  - unfold splicer_from in Es. rewrite (parse_content _ _ _ E) in Es. unfold splicer_from_str in Es'. congruence.
Qed.

Lemma replaced_same doc : forall edits p, in_order p (length doc) (map fst edits) ->
  (forall e, In e edits -> snd e = text_at doc (fst e)) -> replaced doc p edits = skipn p doc.
Proof.
  induction edits as [|[[a b] t] edits IH]; intros p Ho He; [reflexivity|]. cbn [map fst in_order s_start s_end] in Ho.
  destruct Ho as (H1 & H2 & H3 & H4). cbn [replaced s_start s_end]. rewrite (IH b H4 (fun e K => He e (or_intror K))).
  pose proof (He _ (or_introl eq_refl)) as K. cbn [snd fst] in K. unfold text_at in K. cbn [s_start s_end] in K. rewrite K.
  rewrite app_assoc, <- slice_split by lia. unfold slice. rewrite <- (firstn_skipn (b - p) (skipn p doc)) at 2. f_equal.
  rewrite skipn_skipn. f_equal. lia.
Qed.

(** Run on what it printed, without the added line feed, the program prints the same
    again. *)
Theorem C47_idempotent unq input d out : valid_utf8 input = true -> parse unq input = Ok d ->
  fits input (image_edits all_test (d_instructions d)) -> splice_program unq [Chunk input] = Ok (out ++ [LF]) ->
  fits out (image_edits all_test (d_instructions d)) -> splice_program unq [Chunk out] = Ok (out ++ [LF]).
Proof.
  intros Hv E Hfit Hp Hfit2.
  assert (Hrun : forall x dx, valid_utf8 x = true -> parse unq x = Ok dx -> fits x (image_edits all_test (d_instructions dx)) ->
    exists o, splice_program unq [Chunk x] = Ok (o ++ [LF]) /\ o = replaced x 0 (image_edits all_test (d_instructions dx)) /\
    forall g, g = after_edits (image_edits all_test (d_instructions dx)) ->
      parse unq o = Ok (Dockerfile o (map (move_arg g) (d_global_args dx)) (map (with_new_image all_test g) (d_instructions dx)))).
  { intros [|b x] dx Hvx Ex Hfx.
    - destruct (C47_splice_program unq [] dx [] [Chunk []]) as (o & Ho); try assumption; try reflexivity; [constructor|right; exists []; reflexivity|].
      exists o. exact Ho.
    - destruct (C47_splice_program unq (b :: x) dx [Chunk (b :: x)] []) as (o & Ho); try assumption; [repeat constructor; discriminate|left; reflexivity| |].
      + unfold delivered. cbn. rewrite app_nil_r. reflexivity.
      + exists o. exact Ho. }
  destruct (Hrun input d Hv E Hfit) as (o & Eo & Et & Eq). rewrite Hp in Eo. injection Eo as Eo. apply app_inj_tail in Eo.
  destruct Eo as [<- _]. specialize (Eq _ eq_refl). set (g := after_edits _) in Eq.
  assert (Hvo : valid_utf8 out = true).
  { assert (Hok : forall f t r, In (IFrom f) (d_instructions d) -> all_test f = Some (t, r) -> image_accepted t r).
    { intros f t r _ K. injection K as <- <-. exact test_image_accepted. }
    destruct (rewrite_any unq all_test input d Hv E (d_instructions d) [] eq_refl Hok _ eq_refl) as [K _]. rewrite Et. exact K. }
  set (d' := Dockerfile out _ _) in Eq.
  assert (Hsize : text_size (image_edits all_test (d_instructions d')) = text_size (image_edits all_test (d_instructions d))).
  { unfold d'. cbn [d_instructions]. clearbody g. clear. induction (d_instructions d) as [|i l IH]; [reflexivity|]. unfold image_edits, text_size in *.
    cbn [map flat_map]. destruct i; cbn [with_new_image all_test image_edit move_instruction app map snd list_sum fold_right]; try exact IH. f_equal. exact IH. }
  destruct (Hrun out d' Hvo Eq) as (o & Eo & Et2 & _); [unfold fits in *; rewrite Hsize; exact Hfit2|].
  rewrite Eo. f_equal. f_equal. rewrite Et2. change out with (skipn 0 out) at 2. apply replaced_same.
  - apply (images_in_order_any unq all_test out d' Hvo Eq).
  - intros e He. unfold image_edits in He. apply in_flat_map in He. destruct He as (i & Hi & He).
    destruct i as [f| | | | | | | |]; try contradiction. cbn [image_edit all_test] in He. destruct He as [<-|[]]. cbn [fst snd].
    assert (Ec : ss_content (from_image f) = bs "splice:test").
    { unfold d' in Hi. cbn [d_instructions] in Hi. apply in_map_iff in Hi. destruct Hi as (j & Ej & _). destruct j; try discriminate.
      cbn [with_new_image all_test] in Ej. injection Ej as <-. reflexivity. }
    apply in_split in Hi. destruct Hi as (l1 & l2 & El).
    destruct (SwapDoc.parse_replace unq out d' l1 f l2 Hvo Eq El) as (pre & post & Ew & _ & Hsp & _).
    unfold text_at. rewrite Hsp. cbn [s_start s_end]. rewrite <- Ec, Ew. symmetry. apply slice_app.
Qed.

(** What is printed, with the added line feed, need not parse: a backslash at the end
    of the file becomes a line continuation. *)
Theorem C47_printed_refuted : exists (input out : bytes) d d', parse enquote_unquote input = Ok d /\
  splice_program enquote_unquote [Chunk input] = Ok (out ++ [LF]) /\
  parse enquote_unquote out = Ok d' /\ parse enquote_unquote (out ++ [LF]) = Err EParse.
Proof.
  exists (bs "FROM a" ++ [LF] ++ bs "RUN b " ++ [BSLASH]), (bs "FROM splice:test" ++ [LF] ++ bs "RUN b " ++ [BSLASH]).
  do 2 eexists. split; [vm_compute; reflexivity|]. split; [vm_compute; reflexivity|]. split; vm_compute; reflexivity.
Qed.

Example C47_case : fits odd (image_edits all_test (match parse enquote_unquote odd with Ok d => d_instructions d | _ => [] end)) /\
  splice_program enquote_unquote [Chunk odd] = Ok (lines [
    "FROM splice:test AS b";
    "LABEL x=y\";
    "  z=w ";
    "FROM splice:test"]%string ++ bs "RUN echo " ++ [BSLASH; LF]).
Proof. split; vm_compute; reflexivity. Qed.

(** ** C55: examples/stages.rs *)

(** A line that begins with two blanks *)
Definition indented (l : bytes) : bool := match l with 32%N :: 32%N :: _ => true | _ => false end.

Definition program_lines (dp : stage_parent -> bytes) (di : instruction -> bytes) (s : stage) : list bytes :=
  (bs "stage #" ++ display_usize (N.of_nat (st_index s)) ++ bs " (parent: " ++ dp (st_parent s) ++
   bs ", root: " ++ dp (st_root s) ++ bs ")") :: map (fun i => bs "  " ++ di i) (st_instructions s).

Lemma decimal_digits ds n : decimal ds n -> Forall (fun c => is_digit c = true) ds.
Proof.
  induction 1 as [c Hc|ds n c D IH Hc]; [repeat constructor; assumption|]. apply Forall_app. split; [exact IH|]. repeat constructor. exact Hc.
Qed.

Lemma display_no_lf n : ~ In LF (display_usize n).
Proof.
  intros H. destruct (StageFacts.display_usize_spec n) as [D _]. apply decimal_digits in D.
  rewrite Forall_forall in D. specialize (D _ H). discriminate.
Qed.

Lemma only_indented dp di ss :
  filter indented (flat_map (program_lines dp di) ss) = map (fun i => bs "  " ++ di i) (concat (map st_instructions ss)).
Proof.
  induction ss as [|s ss IH]; [reflexivity|]. cbn [flat_map map concat]. rewrite filter_app, map_app, IH. f_equal.
  unfold program_lines. cbn [filter]. change (indented (bs "stage #" ++ _)) with false. cbv iota.
  induction (st_instructions s) as [|i l IHl]; [reflexivity|]. cbn [map filter]. change (indented (bs "  " ++ di i)) with true.
  cbv iota. f_equal. exact IHl.
Qed.

Lemma heading_count dp di ss : length (filter (fun l => negb (indented l)) (flat_map (program_lines dp di) ss)) = length ss.
Proof.
  induction ss as [|s ss IH]; [reflexivity|]. cbn [flat_map]. rewrite filter_app, app_length, IH.
  unfold program_lines. cbn [filter]. change (indented (bs "stage #" ++ _)) with false. cbn [negb length].
  replace (filter _ (map _ _)) with (@nil bytes); [reflexivity|].
  induction (st_instructions s) as [|i l IHl]; [reflexivity|]. exact IHl.
Qed.

Lemma heading_split dp di ss : forall l1 h l2, flat_map (program_lines dp di) ss = l1 ++ h :: l2 -> indented h = false ->
  exists s1 s s2, ss = s1 ++ s :: s2 /\ l1 = flat_map (program_lines dp di) s1 /\
    h :: l2 = program_lines dp di s ++ flat_map (program_lines dp di) s2.
Proof.
  induction ss as [|s ss IH]; intros l1 h l2 E Hh; [destruct l1; discriminate|].
  cbn [flat_map] in E. destruct l1 as [|x l1].
  - exists [], s, ss. split; [reflexivity|]. split; [reflexivity|]. symmetry. exact E.
  - unfold program_lines at 1 in E. cbn [app] in E. injection E as Ex E.
    assert (K : exists l1', l1 = map (fun i => bs "  " ++ di i) (st_instructions s) ++ l1' /\
      flat_map (program_lines dp di) ss = l1' ++ h :: l2).
    { clear Ex IH. revert l1 E. induction (st_instructions s) as [|i l IHl]; intros l1 E; [exists l1; auto|].
      cbn [map app] in E. destruct l1 as [|y l1].
      - exfalso. cbn [app] in E. injection E as <- _. discriminate.
      - cbn [app] in E. injection E as <- E. destruct (IHl l1 E) as (l1' & -> & K). exists l1'. split; [reflexivity|exact K]. }
    destruct K as (l1' & -> & K). destruct (IH _ _ _ K Hh) as (s1 & s' & s2 & -> & -> & E').
    exists (s :: s1), s', s2. split; [reflexivity|]. split; [|exact E']. cbn [flat_map]. unfold program_lines at 2. cbn [app].
    rewrite <- Ex. reflexivity.
Qed.

(** For a file that parses, and if the Debug texts have no line feed: the indented
    lines are the instructions from the first FROM on, in order; there is one other
    line for each FROM, directly before it, with its number. *)
Theorem C55_stages_program unq dp di input d evs tail :
  steady evs -> (tail = [] \/ exists t, tail = Chunk [] :: t) -> input = delivered evs -> valid_utf8 input = true ->
  parse unq input = Ok d ->
  (forall p, ~ In LF (dp p)) -> (forall i, ~ In LF (di i)) ->
  exists ls pre post, stages_program dp di unq (evs ++ tail) = Ok (flat_map (fun l => l ++ [LF]) ls) /\
    Forall (fun l => ~ In LF l) ls /\
    before_first_from (d_instructions d) pre /\ d_instructions d = pre ++ post /\
    filter indented ls = map (fun i => bs "  " ++ di i) post /\
    length (filter (fun l => negb (indented l)) ls) = count_from (d_instructions d) /\
    forall l1 h l2, ls = l1 ++ h :: l2 -> indented h = false ->
      exists f l3 t, In (IFrom f) (d_instructions d) /\ l2 = (bs "  " ++ di (IFrom f)) :: l3 /\
        from_index f = length (filter (fun l => negb (indented l)) l1) /\
        h = bs "stage #" ++ display_usize (N.of_nat (from_index f)) ++ bs " (parent: " ++ t.
Proof.
  intros Hs Ht Ei Hv E Hdp Hdi. unfold stages_program. rewrite (C02_from_reader unq evs tail Hs Ht), <- Ei, Hv, E. cbn [bind].
  destruct (StageFacts.stages_new_spec d) as (ss & Ess & _). rewrite Ess. cbn [bind].
  destruct (C25_stages_partition d ss Ess) as (pre & Ed & Hp & Hf).
  exists (flat_map (program_lines dp di) ss), pre, (concat (map st_instructions ss)).
  split; [|split; [|split; [|split; [|split; [|split]]]]].
  - f_equal. clear. induction ss as [|s ss IH]; [reflexivity|]. cbn [flat_map]. rewrite IH, flat_map_app. f_equal.
    unfold program_lines, stage_heading. cbn [flat_map]. rewrite <- !app_assoc.
    assert (K : flat_map (stage_line di) (st_instructions s) =
                flat_map (fun l => l ++ [LF]) (map (fun i => bs "  " ++ di i) (st_instructions s))).
    { induction (st_instructions s) as [|i l IHl]; [reflexivity|]. cbn [map flat_map]. rewrite IHl. unfold stage_line.
      rewrite <- !app_assoc. reflexivity. }
    rewrite K. reflexivity.
  - apply Forall_forall. intros l Hl. apply in_flat_map in Hl. destruct Hl as (s & _ & [<-|Hl]).
    + rewrite !in_app_iff. intros K.
      destruct K as [K|[K|[K|[K|[K|[K|K]]]]]]; try (eapply Hdp; exact K); try (eapply display_no_lf; exact K);
        cbn in K; repeat (destruct K as [K|K]; [discriminate|]); exact K.
    + apply in_map_iff in Hl. destruct Hl as (i & <- & _). rewrite in_app_iff. intros [K|K]; [|exact (Hdi i K)].
      cbn in K. repeat (destruct K as [K|K]; [discriminate|]). exact K.
  - exists (concat (map st_instructions ss)). split; [exact Ed|]. split.
    + eapply Forall_impl; [|exact Hp]. intros i Hi. destruct i; try reflexivity. exfalso. apply Hi. eexists. reflexivity.
    + destruct ss as [|s ss]; [exact Logic.I|]. cbn [map concat]. destruct (Hf s (or_introl eq_refl)) as (f & rest & -> & _). reflexivity.
  - exact Ed.
  - apply only_indented.
  - rewrite heading_count, Ed, count_from_app, (count_from_none _ Hp), count_from_stages; [reflexivity|exact Hf].
  - intros l1 h l2 El Hh. destruct (heading_split dp di ss l1 h l2 El Hh) as (s1 & s & s2 & -> & -> & Eh).
    assert (Hi : nth_error (s1 ++ s :: s2) (length s1) = Some s).
    { rewrite nth_error_app2, Nat.sub_diag by lia. reflexivity. }
    destruct (C26_stage_index_name d _ _ _ Ess Hi) as (Ex & f & (rest & Er & _) & _ & Hn).
    assert (Hfi : from_index f = length s1).
    { apply Hn. intros a g b Eg. exact (C08_from_index unq input d a g b E Eg). }
    exists f. unfold program_lines in Eh at 1. rewrite Er in Eh. cbn [map app] in Eh. injection Eh as -> ->.
    eexists. eexists. split; [|split; [reflexivity|split]].
    + rewrite Ed, map_app, concat_app. cbn [map concat]. rewrite Er. rewrite !in_app_iff. right. right. left. left. reflexivity.
    + rewrite heading_count. exact Hfi.
    + rewrite Ex, Hfi. reflexivity.
Qed.

(** With the Debug of an instruction replaced by its keyword. *)
Definition keyword_of (i : instruction) : bytes :=
  bs match i with
     | IFrom _ => "From" | IArg _ => "Arg" | ILabel _ => "Label" | IRun _ => "Run" | IEntrypoint _ => "Entrypoint"
     | ICmd _ => "Cmd" | ICopy _ => "Copy" | IEnv _ => "Env" | IMisc _ => "Misc"
     end.
Example C55_case :
  stages_program display_parent keyword_of enquote_unquote [Chunk (lines ["ARG v"; "FROM a:$v AS b"; "RUN x"; "FROM B"; "FROM scratch"]%string)] =
  Ok (lines ["stage #0 (parent: a:$v, root: a:$v)"; "  From"; "  Run"; "stage #1 (parent: 0, root: a:$v)"; "  From";
             "stage #2 (parent: scratch, root: scratch)"; "  From"]%string) /\
  (forall i, ~ In LF (keyword_of i)).
Proof.
  split; [vm_compute; reflexivity|]. intros i H. destruct i; cbn in H; repeat (destruct H as [H|H]; [discriminate|]); exact H.
Qed.

Print Assumptions C47_splice_program.
Print Assumptions C47_idempotent.
Print Assumptions C47_printed_refuted.
Print Assumptions C55_stages_program.
