(** C61: what may follow a line continuation. *)

From Coq Require Import String.
From Verif Require Import Bytes BytesFacts Grammar Peg PegFacts Result Ast Convert Dockerfile Enquote SpecDoc SpecImage SpecSyntax SpecClear ListFacts SpecJoin
  PegRules PegTokens PegQuoted Sound Forward Forward2 Forward3 Forward4 Forward5 Shift JoinDoc PropsDoc PropsParse PropsComplete PropsJoin.
Local Open Scope nat_scope.

(** A shell text in which, after a continuation, the next line is empty or missing *)
Inductive gap_in_shell : bytes -> Prop :=
| broken_here w b n s : chunk w -> ~ comment_like w -> blanks b -> newline n -> (n = [CR] -> ~ begins_with LF s) -> at_line_end s ->
    gap_in_shell (w ++ (BSLASH :: b ++ n) ++ s)
| broken_later w c u : chunk w -> ~ comment_like w -> continuation c -> gap_in_shell u -> gap_in_shell (w ++ c ++ u)
| broken_after_comment b t n u : blanks b -> comment_text t -> newline n -> gap_in_shell u -> gap_in_shell (b ++ t ++ n ++ u).

Lemma broken_not_lf u : gap_in_shell u -> ~ begins_lf u.
Proof.
  intros H. destruct H as [w b n s H _ _ _ _ _|w c u H _ _ _|b t n u Hb Ht _ _].
  - apply chunk_not_lf; exact H.
  - apply chunk_not_lf; exact H.
  - apply blank_comment_not_lf; assumption.
Qed.

Lemma broken_stops u : gap_in_shell u -> forall c p, valid_utf8 u = true ->
  exists q r f, run c any_breakable p u = Done q (BSLASH :: r) f.
Proof.
  intros H. induction H as [w b n s Hw Hc Hb Hn Hcr Hs|w k u Hw Hc Hk Hu IH|b t n u Hb Ht Hn Hu IH]; intros c p Hv;
    unfold any_breakable at 1; rewrite run_call; cbn [grammar fst snd]; rewrite run_alt by reflexivity; rewrite run_seq by reflexivity.
  - assert (Hk : continuation (BSLASH :: b ++ n)) by (exists b, n; auto).
    rewrite comment_line_not; [|exact Hc|apply Hw|cbn; discriminate|exact Hv].
    rewrite run_seq by reflexivity. rewrite chunk_fwd; [|exact Hw|right; apply continues_cont; exact Hk|exact Hv].
    rewrite run_opt by reflexivity. rewrite run_seq by reflexivity. rewrite run_continuation.
    rewrite cont_rest_fwd by assumption.
    assert (Hvs : valid_utf8 s = true).
    { rewrite chunk_valid in Hv by exact Hw. rewrite valid_continuation in Hv by exact Hk. exact Hv. }
    rewrite breakable_fails by assumption. do 3 eexists. reflexivity.
  - rewrite comment_line_not; [|exact Hc|apply Hw|destruct Hk as (b & n & -> & _); cbn; discriminate|exact Hv].
    rewrite run_seq by reflexivity. rewrite chunk_fwd; [|exact Hw|right; apply continues_cont; exact Hk|exact Hv].
    rewrite run_opt by reflexivity. rewrite run_seq by reflexivity.
    rewrite continuation_fwd; [|exact Hk|apply broken_not_lf; exact Hu].
    rewrite chunk_valid in Hv by exact Hw. rewrite valid_continuation in Hv by exact Hk.
    edestruct IH as (q & r & f & E); [exact Hv|]. rewrite E. do 3 eexists. reflexivity.
  - rewrite comment_line_fwd; [|exact Hb|exact Ht|right; apply newline_head; exact Hn|exact Hv|].
    2:{ left. apply strip_newline_fwd; [exact Hn|intros _; apply broken_not_lf; exact Hu]. }
    rewrite valid_blanks, valid_comment, valid_newline in Hv by assumption.
    rewrite run_opt by reflexivity. edestruct IH as (q & r & f & E); [exact Hv|]. rewrite E. do 3 eexists. reflexivity.
Qed.

(** The instruction is read up to the backslash, and then the line does not end. *)
Lemma stuck unq b name u q r f : blanks b -> letters name -> valid_utf8 (name ++ u) = true ->
  run ctx0 (Call R_step) (length b) (name ++ u) = Done q (BSLASH :: r) f -> parse unq (b ++ name ++ u) = Err EParse.
Proof.
  intros Hb (Hne & Hn) Hv E. rewrite parse_lines. unfold document_lines. rewrite run_seq by reflexivity.
  rewrite (run_call ctx0 R_meta_step).
  change (snd (grammar R_meta_step)) with (Seq (Rep ws) (Seq (Opt (Alt (Call R_step) comment)) (Rep ws))).
  change (fst (grammar R_meta_step)) with Silent. cbn [rule_inner rule_outer rule_tokens]. rewrite run_seq by reflexivity.
  rewrite blanks_fwd; [|exact Hb|]. 2:{ destruct Hn as [|x name Hx _]; [congruence|]. cbn [app]. apply letter_not_blank. exact Hx. }
  rewrite run_seq by reflexivity. rewrite run_opt by reflexivity. rewrite run_alt by reflexivity. cbn [Nat.add]. rewrite E.
  rewrite <- (app_nil_l (BSLASH :: r)) at 1. rewrite blanks_fwd; [|constructor|reflexivity].
  rewrite run_rep by reflexivity. rewrite run_seq by reflexivity. rewrite run_newline. reflexivity.
Qed.

(** RUN, CMD and ENTRYPOINT with a shell command: a document with an empty line (or the
    end) directly after a continuation is rejected, whatever follows. *)
Theorem C61_shell_refuted unq k b kw g u : In k ["run"; "cmd"; "entrypoint"]%string -> blanks b -> keyword k kw -> gap 0 g -> g <> [] ->
  begins_solid u -> ~ begins_list u -> gap_in_shell u -> valid_utf8 u = true ->
  parse unq (b ++ kw ++ g ++ u) = Err EParse.
Proof.
  intros Hk Hb Hkw Hg Hne Hso Hna Hu Hv.
  assert (K : exists r rx rs, In (k, r) keyword_rules /\ grammar r = (Normal, Seq (Insens (bs k)) (Seq arg_ws (Alt (Call rx) (Call rs)))) /\
    good (Seq (Insens (bs k)) (Seq arg_ws (Alt (Call rx) (Call rs)))) = true /\
    grammar rx = (Normal, Call R_string_array) /\ grammar rs = (AtomicRule, any_breakable) /\
    to_lower (bs k) = bs k /\ letters (bs k)).
  { destruct Hk as [<-|[<-|[<-|[]]]];
      [exists R_run, R_run_exec, R_run_shell|exists R_cmd, R_cmd_exec, R_cmd_shell|exists R_entrypoint, R_entrypoint_exec, R_entrypoint_shell];
      (split; [cbn; tauto|]); repeat (split; [reflexivity|]); (split; [discriminate|repeat constructor]). }
  destruct K as (r & rx & rs & Hin & Hr & G & Hx & Hs & Hlow & Hlet).
  assert (Hkl : letters kw).
  { destruct Hlet as [Hl1 Hl2]. unfold keyword in Hkw. rewrite <- Hkw in Hl1, Hl2. split; [intros ->; apply Hl1; reflexivity|].
    unfold to_lower in Hl2. rewrite Forall_map in Hl2. revert Hl2. apply Forall_impl. intros x. rewrite lower_is_alpha. auto. }
  assert (Hvg : valid_utf8 (g ++ u) = true) by (rewrite (valid_gap _ _ _ Hg); exact Hv).
  assert (Hvk : valid_utf8 (kw ++ g ++ u) = true) by (rewrite (class_valid _ _ _ alpha_ascii (proj2 Hkl)); exact Hvg).
  pose proof (good_sub _ G) as [_ G1]. pose proof (good_sub _ G1) as [_ G2].
  destruct (gap_fwd 0 g u (length b + length kw) Hg Hne) as (f1 & E1 & _ & _);
    [rewrite <- (app_nil_r u); apply solid_stops; exact Hso|exact Hv|].
  destruct (broken_stops u Hu (rule_inner AtomicRule ctx0) (length b + length kw + length g) Hv) as (q & r0 & f & E).
  assert (Er : exists f', run ctx0 (Call r) (length b) (kw ++ g ++ u) = Done q (BSLASH :: r0) f').
  { eexists. apply token_fwd; rewrite Hr; [discriminate|]. cbn [fst snd rule_inner rule_outer].
    rewrite run_seq by exact G. rewrite keyword_fwd by assumption. rewrite run_seq by exact G1. rewrite E1.
    rewrite run_alt by exact G2.
    assert (Ea : run ctx0 (Call rx) (length b + length kw + length g) u = Fail).
    { apply list_here; assumption. }
    rewrite Ea, run_call, Hs. cbn [fst snd]. rewrite E. reflexivity. }
  destruct Er as (f' & Er).
  apply (stuck unq b kw (g ++ u) q r0 f' Hb Hkl Hvk).
  apply (step_keyword k r); [exact Hin|exact Hkw|apply (gap_no_letter 0); assumption|exact Hvk|exact Er].
Qed.

(** The other instructions, which are not interpreted *)
Theorem C61_misc_refuted unq b name u : blanks b -> letters name -> (forall k, In k reserved -> ~ keyword k name) ->
  (match u with c :: _ => is_alpha c = false | [] => True end) -> gap_in_shell u -> valid_utf8 u = true ->
  parse unq (b ++ name ++ u) = Err EParse.
Proof.
  intros Hb Hn Hres Hhead Hu Hv.
  assert (Hvk : valid_utf8 (name ++ u) = true) by (rewrite (class_valid _ _ _ alpha_ascii (proj2 Hn)); exact Hv).
  destruct (broken_stops u Hu (rule_inner AtomicRule ctx0) (length b + length name) Hv) as (q & r0 & f & E).
  assert (Er : exists f', run ctx0 (Call R_misc) (length b) (name ++ u) = Done q (BSLASH :: r0) f').
  { eexists. apply token_fwd; [discriminate|]. cbn [grammar fst snd rule_inner rule_outer].
    rewrite run_seq by reflexivity. rewrite letters_fwd; [|reflexivity|exact Hn|exact Hhead].
    rewrite run_call. cbn [grammar fst snd]. rewrite E. reflexivity. }
  destruct Er as (f' & Er). apply (stuck unq b name u q r0 f' Hb Hn Hvk). apply step_misc; try assumption.
Qed.

(** ENV with one name and the rest of the line as its value *)
Theorem C61_env_refuted unq b kw j g1 n k g2 u : blanks b -> keyword "env" kw -> gap j g1 -> g1 <> [] -> env_name_text n -> gap k g2 -> g2 <> [] ->
  begins_solid u -> ~ begins_with_quote u -> gap_in_shell u -> valid_utf8 u = true ->
  parse unq (b ++ kw ++ g1 ++ n ++ g2 ++ u) = Err EParse.
Proof.
  intros Hb Hkw Hg1 Hn1 Hn Hg2 Hn2 Hso Hnq Hu Hv.
  assert (Hkl : letters kw).
  { unfold keyword in Hkw. assert (Hl : letters (bs "env")) by (split; [discriminate|repeat constructor]).
    destruct Hl as [Hl1 Hl2]. rewrite <- Hkw in Hl1, Hl2. split; [intros ->; apply Hl1; reflexivity|].
    unfold to_lower in Hl2. rewrite Forall_map in Hl2. revert Hl2. apply Forall_impl. intros x. rewrite lower_is_alpha. auto. }
  assert (Hv2 : valid_utf8 (g1 ++ n ++ g2 ++ u) = true).
  { rewrite (valid_gap _ _ _ Hg1), (class_valid _ _ _ word_ascii (proj2 Hn)), (valid_gap _ _ _ Hg2). exact Hv. }
  assert (Hvk : valid_utf8 (kw ++ g1 ++ n ++ g2 ++ u) = true) by (rewrite (class_valid _ _ _ alpha_ascii (proj2 Hkl)); exact Hv2).
  destruct (gap_fwd j g1 (n ++ g2 ++ u) (length b + length kw) Hg1 Hn1) as (f1 & E1 & _ & _);
    [apply (class_stops is_word); [exact word_solid|apply Hn|apply Hn]|rewrite (valid_gap _ _ _ Hg1) in Hv2; exact Hv2|].
  destruct (gap_fwd k g2 u (length b + length kw + length g1 + length n) Hg2 Hn2) as (f2 & E2 & _ & _);
    [rewrite <- (app_nil_r u); apply solid_stops; exact Hso|exact Hv|].
  destruct (broken_stops u Hu (rule_inner AtomicRule ctx0) (length b + length kw + length g1 + length n + length g2) Hv) as (q & r0 & f & E).
  assert (Er : exists f', run ctx0 (Call R_env) (length b) (kw ++ g1 ++ n ++ g2 ++ u) = Done q (BSLASH :: r0) f').
  { eexists. apply token_fwd; [discriminate|]. cbn [grammar fst snd rule_inner rule_outer].
    rewrite run_seq by reflexivity. rewrite keyword_fwd; [|exact Hkw|reflexivity].
    rewrite run_alt by reflexivity. rewrite run_call. cbn [grammar fst snd rule_inner rule_outer].
    rewrite run_seq by reflexivity. rewrite E1.
    rewrite run_seq by reflexivity. rewrite env_name_fwd; [|reflexivity|exact Hn|apply (gap_class _ k); [exact Hg2|exact Hn2|apply word_solid]].
    rewrite run_seq by reflexivity. rewrite E2. rewrite run_alt by reflexivity.
    rewrite <- (app_nil_r u) at 1. rewrite (quoted_token_fails R_env_single_quoted_value CompoundRule);
      [|reflexivity|apply not_quote_app; [destruct Hso as (? & ? & -> & _); discriminate|exact Hnq]].
    rewrite run_call. cbn [grammar fst snd]. rewrite E. reflexivity. }
  destruct Er as (f' & Er).
  apply (stuck unq b kw (g1 ++ n ++ g2 ++ u) q r0 f' Hb Hkl Hvk).
  apply (step_keyword "env" R_env); [cbn; tauto|exact Hkw|apply (gap_no_letter j); assumption|exact Hvk|exact Er].
Qed.

(** Any of these commands *)
Inductive broken_command : bytes -> Prop :=
| broken_shell k kw g u : In k ["run"; "cmd"; "entrypoint"]%string -> keyword k kw -> gap 0 g -> g <> [] ->
    begins_solid u -> ~ begins_list u -> gap_in_shell u -> broken_command (kw ++ g ++ u)
| broken_env kw j g1 n k g2 u : keyword "env" kw -> gap j g1 -> g1 <> [] -> env_name_text n -> gap k g2 -> g2 <> [] ->
    begins_solid u -> ~ begins_with_quote u -> gap_in_shell u -> broken_command (kw ++ g1 ++ n ++ g2 ++ u)
| broken_other name u : letters name -> (forall k, In k reserved -> ~ keyword k name) ->
    (match u with c :: _ => is_alpha c = false | [] => True end) -> gap_in_shell u -> broken_command (name ++ u).

(** Anywhere in a document *)
Theorem C61_anywhere_refuted unq a n b w : valid_utf8 a = true -> complete a -> blanks b -> broken_command w -> valid_utf8 w = true ->
  quotes_apart a (n ++ b ++ w) -> breaks a n (b ++ w) ->
  parse unq (a ++ n ++ b ++ w) = Err EParse.
Proof.
  intros Va Ca Hb Hw Hv HQ HB.
  assert (E : parse unq (b ++ w) = Err EParse).
  { destruct Hw as [k kw g u Hk Hkw Hg Hne Hso Hna Hu|kw j g1 m k g2 u Hkw Hg1 Hn1 Hm Hg2 Hn2 Hso Hnq Hu|name u Hn Hres Hh Hu].
    - apply (C61_shell_refuted unq k); try assumption.
      rewrite (keyword_valid k), (valid_gap _ _ _ Hg) in Hv; [exact Hv|exact Hkw|].
      destruct Hk as [<-|[<-|[<-|[]]]]; repeat constructor.
    - apply (C61_env_refuted unq b kw j g1 m k); try assumption.
      rewrite (keyword_valid "env"), (valid_gap _ _ _ Hg1), (class_valid _ _ _ word_ascii (proj2 Hm)), (valid_gap _ _ _ Hg2) in Hv;
        [exact Hv|exact Hkw|repeat constructor].
    - apply C61_misc_refuted; try assumption. rewrite (class_valid _ _ _ alpha_ascii (proj2 Hn)) in Hv. exact Hv. }
  assert (V : valid_utf8 (b ++ w) = true) by (rewrite valid_blanks by exact Hb; exact Hv).
  destruct (C56_errors unq a n _ Va V Ca HQ HB) as (X & _ & _). apply X. right. exact E.
Qed.

(** Between the parts of an instruction, empty lines after a continuation are no
    obstacle: here between FROM and the image, for every gap (C38 has the others). *)
Theorem C61_between_parts unq kw k g img r : keyword "from" kw -> gap k g -> g <> [] -> image_text img -> ~ begins_with DASH img ->
  image_ref_of img r -> (forall h, i_hash r = Some h -> digest_accepted h) ->
  exists d, parse unq (kw ++ g ++ img) = Ok d /\
    d_instructions d = [IFrom (FromInstruction (at_ 0 (kw ++ g ++ img)) [] (SpannedString (at_ (length kw + length g) img) img) r 0 None)].
Proof.
  intros Hkw Hg Hne Himg Hd Hr Hh.
  assert (V : valid_utf8 (kw ++ g ++ img) = true).
  { rewrite (keyword_valid "from"), (valid_gap _ _ _ Hg); [|exact Hkw|repeat constructor]. rewrite <- (app_nil_r img).
    rewrite (class_valid _ _ _ image_ascii (proj2 Himg)). reflexivity. }
  set (f := FromInstruction (at_ 0 (kw ++ g ++ img)) [] (SpannedString (at_ (length kw + length g) img) img) r 0 None).
  assert (C : clear_document unq (kw ++ g ++ img) [IFrom f]).
  { apply clear_last. replace (kw ++ g ++ img) with ([] ++ (kw ++ g ++ img) ++ []) by (cbn [app]; apply app_nil_r).
    apply clear_closed; [constructor| |constructor]. cbn [length Nat.add clear_closed_at].
    exists kw, [], k, g, img, []. cbn [app length from_flags from_image from_image_parsed from_alias from_span f]. rewrite !app_nil_r, !Nat.add_0_r. cbn [Nat.add].
    repeat split; try assumption; try (apply Himg). all: constructor. split; reflexivity. }
  destruct (C38_complete unq _ _ V C) as (d & E & _ & Ed & _). exists d. split; [exact E|]. rewrite Ed. reflexivity.
Qed.

Lemma not_comment w : match drop_while is_blank w with c :: _ => (c =? HASH)%N | [] => false end = false -> ~ comment_like w.
Proof.
  intros H (b & t & -> & Hb). induction Hb as [|x b Hx Hb IH]; [discriminate|]. cbn [app drop_while] in H. rewrite Hx in H. auto.
Qed.

(** The same line with one blank in it, or with a comment, is accepted. *)
Definition broken_text : bytes := bs "apt update && \" ++ [LF] ++ bs " # comment" ++ [CR; LF] ++ bs "  apt install \" ++ [LF; LF] ++ bs "FROM x".
Example C61_case : gap_in_shell broken_text /\ begins_solid broken_text /\ ~ begins_list broken_text /\
  parse enquote_unquote (bs "run " ++ broken_text) = Err EParse /\
  how_many (parse enquote_unquote (bs "RUN a \" ++ [LF] ++ bs " " ++ [LF] ++ bs "FROM x")) = Some 2 /\
  how_many (parse enquote_unquote (bs "RUN a \" ++ [LF] ++ bs "#" ++ [LF; LF] ++ bs "FROM x")) = Some 2 /\
  how_many (parse enquote_unquote (bs "FROM \" ++ [LF; LF] ++ bs "#" ++ [LF; LF] ++ bs "x")) = Some 1.
Proof.
  split; [|split; [|split; [|repeat split; vm_compute; reflexivity]]].
  - apply (broken_later (bs "apt update && ") [BSLASH; LF] (bs " # comment" ++ [CR; LF] ++ bs "  apt install \" ++ [LF; LF] ++ bs "FROM x")).
    + split; [discriminate|]. split; [repeat constructor|reflexivity].
    + apply not_comment. reflexivity.
    + exists [], [LF]. repeat split; constructor.
    + apply (broken_after_comment (bs " ") (bs "# comment") [CR; LF] (bs "  apt install \" ++ [LF; LF] ++ bs "FROM x")).
      * repeat constructor.
      * exists (bs " comment"). repeat split. repeat constructor.
      * constructor.
      * apply (broken_here (bs "  apt install ") [] [LF] ([LF] ++ bs "FROM x")).
        -- split; [discriminate|]. split; [repeat constructor|reflexivity].
        -- apply not_comment. reflexivity.
        -- constructor.
        -- constructor.
        -- intros K. discriminate K.
        -- right. reflexivity.
  - eexists _, _. split; [reflexivity|]. repeat split; discriminate.
  - apply never_begins, not_begins_list; [discriminate|]. intros (b & c & t & E & _). discriminate.
Qed.

(** In the middle of a document *)
Example C61_anywhere_case : let w := bs "env A b \" ++ [LF; LF] ++ bs "FROM z" in
  complete (bs "FROM x") /\ broken_command w /\ quotes_apart (bs "FROM x") ([LF] ++ bs " " ++ w) /\ breaks (bs "FROM x") [LF] (bs " " ++ w) /\
  parse enquote_unquote (bs "FROM x" ++ [LF] ++ bs " " ++ w) = Err EParse /\
  how_many (parse enquote_unquote (bs "FROM x" ++ [LF] ++ bs " env A b \" ++ [LF] ++ bs " " ++ [LF] ++ bs "FROM z")) = Some 3.
Proof.
  cbv zeta. split.
  { apply (complete_line [] (bs "FROM x")); [left; reflexivity|repeat constructor|exists 70%N; split; [left; reflexivity|reflexivity]| |].
    - cbn. intros H. repeat (destruct H as [H|H]; [discriminate|]). exact H.
    - apply not_backslash. vm_compute. reflexivity. }
  split.
  { apply (broken_env (bs "env") 0 (bs " ") (bs "A") 0 (bs " ") (bs "b \" ++ [LF; LF] ++ bs "FROM z")); try discriminate; try reflexivity.
    - apply gap_blanks; reflexivity.
    - split; [discriminate|repeat constructor].
    - apply gap_blanks; reflexivity.
    - eexists _, _. split; [reflexivity|]. repeat split; discriminate.
    - intros [(t & E)|(t & E)]; discriminate E.
    - apply (broken_here (bs "b ") [] [LF] ([LF] ++ bs "FROM z")).
      + split; [discriminate|]. split; [repeat constructor|reflexivity].
      + apply not_comment. reflexivity.
      + constructor.
      + constructor.
      + intros K. discriminate K.
      + right. reflexivity. }
  split; [apply no_quote_after; repeat constructor; discriminate|]. split.
  { split; [constructor|]. split; [discriminate|]. intros _ (a0 & E). apply (f_equal (fun l => last l 0%N)) in E. rewrite last_last in E. discriminate. }
  split; vm_compute; reflexivity.
Qed.

Print Assumptions C61_shell_refuted.
Print Assumptions C61_misc_refuted.
Print Assumptions C61_env_refuted.
Print Assumptions C61_anywhere_refuted.
Print Assumptions C61_between_parts.
