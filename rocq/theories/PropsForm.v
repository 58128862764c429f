(** C67: exec form or shell form. *)

From Coq Require Import String.
From Verif Require Import Bytes BytesFacts Grammar Peg PegFacts Result Ast Splicer Image Convert Dockerfile Enquote SpecImage
  SpecSyntax SpecLayout SpecClear SpecJoin SpecParts PegRules PegTokens PegQuoted Sound SoundInstr Forward Forward2 Forward3 Forward4 Forward5 Shift Idle JoinDoc Local
  ListFacts PartsFacts ParseFacts DocFacts PropsDoc PropsParse PropsComplete PropsJoin PropsWrite.
Local Open Scope nat_scope.

(** The command of RUN, CMD and ENTRYPOINT *)
Definition command_of (i : instruction) : option shell_or_exec :=
  match i with
  | IRun x => Some (run_expr x)
  | ICmd x => Some (cmd_expr x)
  | IEntrypoint x => Some (entrypoint_expr x)
  | _ => None
  end.

(** ** The rules of the three instructions *)
Definition command_rules (k : string) (r rx rs : rule) : Prop :=
  (k, r, rx, rs) = ("run"%string, R_run, R_run_exec, R_run_shell) \/
  (k, r, rx, rs) = ("cmd"%string, R_cmd, R_cmd_exec, R_cmd_shell) \/
  (k, r, rx, rs) = ("entrypoint"%string, R_entrypoint, R_entrypoint_exec, R_entrypoint_shell).

Lemma rules_facts k r rx rs : command_rules k r rx rs -> In (k, r) keyword_rules /\
  grammar r = (Normal, Seq (Insens (bs k)) (Seq arg_ws (Alt (Call rx) (Call rs)))) /\
  good (Seq (Insens (bs k)) (Seq arg_ws (Alt (Call rx) (Call rs)))) = true /\
  grammar rx = (Normal, Call R_string_array) /\ grammar rs = (AtomicRule, any_breakable) /\
  to_lower (bs k) = bs k /\ letters (bs k) /\ rx <> rs /\ R_comment <> rx /\ R_comment <> rs.
Proof.
  intros [H|[H|H]]; injection H as -> -> -> ->; (split; [cbn; tauto|]); repeat (split; [reflexivity|]);
    (split; [split; [discriminate|repeat constructor]|]); repeat split; discriminate.
Qed.

Lemma command_step unq src p s q s' t j e : run ctx0 (Call R_step) p s = Done q s' [t] -> instruction_of unq src t = Ok j ->
  command_of j = Some e -> exists k r rx rs, command_rules k r rx rs /\ run ctx0 (Call r) p s = Done q s' [t] /\
    shell_or_exec_of unq src rx rs t = Ok e.
Proof.
  intros R Ej Ec. apply call_inv in R. destruct R as (f1 & R & K). cbn [grammar fst snd rule_inner rule_tokens] in *. subst f1.
  assert (Rule : t_rule t = R_run \/ t_rule t = R_cmd \/ t_rule t = R_entrypoint).
  { unfold instruction_of in Ej. destruct (t_rule t); try discriminate Ej; auto;
      (apply ConvertSame.bind_ok in Ej; destruct Ej as (y & _ & K); injection K as <-; discriminate Ec). }
  assert (Get : exists k r rx rs, command_rules k r rx rs /\ t_rule t = r /\ shell_or_exec_of unq src rx rs t = Ok e).
  { destruct Rule as [Er|[Er|Er]]; unfold instruction_of in Ej; rewrite Er in Ej; apply ConvertSame.bind_ok in Ej; destruct Ej as (y & Ey & K); injection K as <-;
      [exists "run"%string, R_run, R_run_exec, R_run_shell|exists "cmd"%string, R_cmd, R_cmd_exec, R_cmd_shell|exists "entrypoint"%string, R_entrypoint, R_entrypoint_exec, R_entrypoint_shell];
      (split; [unfold command_rules; tauto|]); (split; [exact Er|]);
      unfold run_of, cmd_of, entrypoint_of in Ey; apply ConvertSame.bind_ok in Ey; destruct Ey as (e' & Ee & K); injection K as <-;
      cbn in Ec; injection Ec as <-; exact Ee. }
  destruct Get as (k & r & rx & rs & Hr & Er & Ee). exists k, r, rx, rs. split; [exact Hr|]. split; [|exact Ee].
  assert (Chain : forall r0 s0 q0 s1, run ctx0 (Call r0) p s0 = Done q0 s1 [t] -> fst (grammar r0) = Normal -> t_rule t = r0).
  { intros r0 s0 q0 s1 R0 Hn. apply token_inv in R0; [|rewrite Hn; discriminate]. destruct R0 as (l & _ & K). injection K as ->. reflexivity. }
  clear Ej Ee Ec.
  do 8 (apply alt_inv in R; [|reflexivity]; destruct R as [R|[_ R]];
    [pose proof (Chain _ _ _ _ R eq_refl) as C; rewrite C in *; destruct Rule as [E|[E|E]]; try discriminate E; subst r; exact R|]).
  pose proof (Chain _ _ _ _ R eq_refl) as C; rewrite C in *; destruct Rule as [E|[E|E]]; discriminate E.
Qed.

(** ** C67 *)

Theorem C67_form unq input d i e : valid_utf8 input = true -> parse unq input = Ok d -> In i (d_instructions d) -> command_of i = Some e ->
  match e with
  | Exec a => list_text (text_at (d_content d) (sa_span a))
  | Shell s => ~ begins_list (skipn (s_start (br_span s)) (d_content d))
  end.
Proof.
  intros V H Hi He. destruct e as [s|a].
  2:{ eapply list_of. apply (C33_exec unq input d i a V H Hi). unfold exec_of. destruct i; cbn in *; try discriminate; injection He as ->; reflexivity. }
  rewrite (parse_content _ _ _ H).
  destruct (instruction_step unq input d i H Hi) as (P & s0 & q & b2 & s2 & t & j & n & EP & LP & R & _ & _ & Ej & En).
  assert (Hc : command_of j = Some (Shell s)).
  { destruct j; cbn [numbered] in En; injection En as <-; exact He. }
  destruct (command_step unq input _ _ _ _ _ _ _ R Ej Hc) as (k & r & rx & rs & Hr & R1 & Es).
  destruct (rules_facts _ _ _ _ Hr) as (_ & Hg & G & Hx & Hs & Hlow & Hlet & D1 & D2 & D3).
  assert (Hv0 : valid_utf8 s0 = true).
  { apply call_inv in R1. destruct R1 as (f' & R1 & _). rewrite Hg in R1. cbn [fst snd rule_inner rule_outer] in R1.
    apply seq_inv in R1; [|exact G]. destruct R1 as (p1 & s1 & f1 & f2 & R1 & _). apply keyword_inv in R1; [|exact Hlow].
    destruct R1 as (w & -> & _ & Hw & _).
    apply (valid_utf8_cut input V P (w ++ s1) EP). unfold keyword in Hw. destruct Hlet as [Hl1 Hl2]. rewrite <- Hw in Hl1, Hl2.
    destruct w as [|c w]; [exfalso; apply Hl1; reflexivity|]. cbn [app]. cbn [to_lower map] in Hl2. apply Forall_inv in Hl2.
    rewrite lower_is_alpha in Hl2. pose proof (alpha_ascii c Hl2). unfold is_cont, in_range. destruct (N.leb_spec 128 c); [lia|reflexivity]. }
  apply token_inv in R1; [|rewrite Hg; discriminate]. destruct R1 as (l & R1 & Et). injection Et as ->. rewrite Hg in R1. cbn [fst snd rule_inner rule_outer] in R1.
  pose proof (good_sub _ G) as [_ G1]. pose proof (good_sub _ G1) as [_ G2].
  apply seq_inv in R1; [|exact G]. destruct R1 as (p1 & s1 & f1 & f2 & E1 & R1 & ->). apply keyword_inv in E1; [|exact Hlow].
  destruct E1 as (kw & -> & -> & Hkw & ->).
  apply seq_inv in R1; [|exact G1]. destruct R1 as (p2 & s3 & f3 & f4 & E2 & R1 & ->).
  assert (Hn : nullable (Alt (Call rx) (Call rs)) = false) by (destruct Hr as [K|[K|K]]; injection K as _ _ -> ->; reflexivity).
  pose proof (run_strict _ _ _ _ _ _ _ R1 Hn) as Hlen.
  assert (Hv1 : valid_utf8 s1 = true) by (rewrite (Forward3.keyword_valid k kw s1 Hkw (proj2 Hlet)) in Hv0; exact Hv0).
  pose proof (run_valid _ _ _ _ _ _ _ E2 Hv1 eq_refl) as Hv3.
  apply gap_inv_more in E2; [|exact Hv1|intros ->; cbn in Hlen; lia]. destruct E2 as (g & -> & -> & Hcs & _ & _).
  unfold shell_or_exec_of in Es. cbn [t_children app] in Es.
  destruct f3 as [|c0 f3].
  2:{ exfalso. cbn [app] in Es. inversion Hcs as [|? ? Hc0 _]. subst.
      destruct (rule_eq_dec (t_rule c0) rx) as [K|_]; [congruence|]. destruct (rule_eq_dec (t_rule c0) rs) as [K|_]; [congruence|]. discriminate. }
  cbn [app] in Es. apply alt_inv in R1; [|exact G2]. destruct R1 as [R1|[Rf R1]].
  - exfalso. apply token_inv in R1; [|rewrite Hx; discriminate]. destruct R1 as (l' & _ & ->). cbn [t_rule] in Es.
    destruct (rule_eq_dec rx rx) as [_|K]; [|congruence]. apply ConvertSame.bind_ok in Es. destruct Es as (a & _ & K). discriminate.
  - apply token_inv in R1; [|rewrite Hs; discriminate]. destruct R1 as (l' & _ & ->). cbn [t_rule] in Es.
    destruct (rule_eq_dec rs rx) as [K|_]; [congruence|]. destruct (rule_eq_dec rs rs) as [_|K]; [|congruence].
    apply ConvertSame.bind_ok in Es. destruct Es as (x & Ex & K). injection K as <-.
    unfold parse_any_breakable in Ex. apply ConvertSame.bind_ok in Ex. destruct Ex as (cs & _ & K). injection K as <-.
    cbn [br_span span_of s_start t_start].
    assert (Ei : skipn (length P + length kw + length g) (P ++ kw ++ g ++ s3) = s3).
    { rewrite !app_assoc. rewrite <- !app_length. apply skipn_app_exact. }
    rewrite EP, Ei. apply (list_here rx (length P + length kw + length g)); assumption.
Qed.

(** A command that goes on after the list is not read as a shell command: the document is
    rejected. *)
Lemma goes_on unq b name u q c x t f : blanks b -> letters name -> valid_utf8 (name ++ u) = true -> blanks c -> is_blank x = false -> is_newline_byte x = false ->
  run ctx0 (Call R_step) (length b) (name ++ u) = Done q (c ++ x :: t) f -> parse unq (b ++ name ++ u) = Err EParse.
Proof.
  intros Hb (Hne & Hn) Hv Hc Hx Hnl E. rewrite parse_lines. unfold document_lines. rewrite run_seq by reflexivity.
  rewrite (run_call ctx0 R_meta_step).
  change (snd (grammar R_meta_step)) with (Seq (Rep ws) (Seq (Opt (Alt (Call R_step) comment)) (Rep ws))).
  change (fst (grammar R_meta_step)) with Silent. cbn [rule_inner rule_outer rule_tokens]. rewrite run_seq by reflexivity.
  rewrite blanks_fwd; [|exact Hb|]. 2:{ destruct Hn as [|y name Hy _]; [congruence|]. cbn [app]. apply letter_not_blank. exact Hy. }
  rewrite run_seq by reflexivity. rewrite run_opt by reflexivity. rewrite run_alt by reflexivity. cbn [Nat.add]. rewrite E.
  rewrite blanks_fwd; [|exact Hc|exact Hx].
  rewrite run_rep by reflexivity. rewrite run_seq by reflexivity. rewrite run_newline.
  rewrite (proj2 (strip_newline_none (x :: t)) Hnl). reflexivity.
Qed.

Theorem C67_goes_on_refuted unq b k kw j g l c x t : In k ["run"; "cmd"; "entrypoint"]%string -> blanks b -> keyword k kw -> gap j g -> g <> [] ->
  list_text l -> blanks c -> is_blank x = false -> is_newline_byte x = false -> valid_utf8 (x :: t) = true ->
  parse unq (b ++ kw ++ g ++ l ++ c ++ x :: t) = Err EParse.
Proof.
  intros Hk Hb Hkw Hgap Hne Hl Hc Hx Hnl Hv.
  assert (K : exists r rx rs, command_rules k r rx rs).
  { destruct Hk as [<-|[<-|[<-|[]]]]; do 3 eexists; unfold command_rules; [left; reflexivity|right; left; reflexivity|right; right; reflexivity]. }
  destruct K as (r & rx & rs & Hr). destruct (rules_facts _ _ _ _ Hr) as (Hin & Hg & G & Hgx & Hgs & Hlow & Hlet & _).
  assert (Hkl : letters kw).
  { destruct Hlet as [Hl1 Hl2]. unfold keyword in Hkw. rewrite <- Hkw in Hl1, Hl2. split; [intros ->; apply Hl1; reflexivity|].
    unfold to_lower in Hl2. rewrite Forall_map in Hl2. revert Hl2. apply Forall_impl. intros y. rewrite lower_is_alpha. auto. }
  assert (Hvc : valid_utf8 (c ++ x :: t) = true) by (rewrite valid_blanks by exact Hc; exact Hv).
  assert (Hvl : valid_utf8 (l ++ c ++ x :: t) = true).
  { destruct (easy_list l Hl 0) as (a & Ha). rewrite (valid_utf8_app l _ (PartsFacts.array_valid easy _ _ _ Ha)). exact Hvc. }
  assert (Hvg : valid_utf8 (g ++ l ++ c ++ x :: t) = true) by (rewrite (Forward.valid_gap _ _ _ Hgap); exact Hvl).
  assert (Hvk : valid_utf8 (kw ++ g ++ l ++ c ++ x :: t) = true) by (rewrite (Forward3.class_valid _ _ _ alpha_ascii (proj2 Hkl)); exact Hvg).
  pose proof (good_sub _ G) as [_ G1]. pose proof (good_sub _ G1) as [_ G2].
  assert (Hst : gap_stops (l ++ c ++ x :: t)) by (destruct Hl; cbn; repeat split; discriminate).
  destruct (gap_fwd j g (l ++ c ++ x :: t) (length b + length kw) Hgap Hne Hst Hvl) as (f1 & E1 & _ & _).
  destruct (list_fwd rx (length b + length kw + length g) l (c ++ x :: t) Hgx Hl Hvc) as (ch & E2).
  eapply (goes_on unq b kw (g ++ l ++ c ++ x :: t) _ c x t _ Hb Hkl Hvk Hc Hx Hnl).
  apply (step_keyword k r); [exact Hin|exact Hkw|apply (gap_no_letter j); assumption|exact Hvk|].
  apply token_fwd; rewrite Hg; [discriminate|]. cbn [fst snd rule_inner rule_outer].
  rewrite run_seq by exact G. rewrite keyword_fwd by assumption. rewrite run_seq by exact G1. rewrite E1. rewrite run_alt by exact G2. rewrite E2. reflexivity.
Qed.

Theorem C67_anywhere_refuted unq a n b k kw j g l c x t : valid_utf8 a = true -> complete a ->
  In k ["run"; "cmd"; "entrypoint"]%string -> blanks b -> keyword k kw -> gap j g -> g <> [] ->
  list_text l -> blanks c -> is_blank x = false -> is_newline_byte x = false -> valid_utf8 (x :: t) = true ->
  quotes_apart a (n ++ b ++ kw ++ g ++ l ++ c ++ x :: t) -> breaks a n (b ++ kw ++ g ++ l ++ c ++ x :: t) ->
  parse unq (a ++ n ++ b ++ kw ++ g ++ l ++ c ++ x :: t) = Err EParse.
Proof.
  intros Va Ca Hk Hb Hkw Hg Hne Hl Hc Hx Hnl Hv HQ HB.
  pose proof (C67_goes_on_refuted unq b k kw j g l c x t Hk Hb Hkw Hg Hne Hl Hc Hx Hnl Hv) as E.
  assert (V : valid_utf8 (b ++ kw ++ g ++ l ++ c ++ x :: t) = true).
  { rewrite valid_blanks by exact Hb. rewrite (Forward3.keyword_valid k), (Forward.valid_gap _ _ _ Hg); [|exact Hkw|destruct Hk as [<-|[<-|[<-|[]]]]; repeat constructor].
    destruct (easy_list l Hl 0) as (y & Hy). rewrite (valid_utf8_app l _ (PartsFacts.array_valid easy _ _ _ Hy)), valid_blanks by exact Hc. exact Hv. }
  destruct (C56_errors unq a n _ Va V Ca HQ HB) as (X & _ & _). apply X. right. exact E.
Qed.

(** Any other line is a shell command, and its text is what was written. *)
Theorem C67_shell unq k kw g w : In k ["run"; "cmd"; "entrypoint"]%string -> keyword k kw -> gap 0 g -> g <> [] -> one_line w -> never_list w ->
  exists d i s, parse unq (kw ++ g ++ w) = Ok d /\ d_instructions d = [i] /\ command_of i = Some (Shell s) /\
    br_span s = at_ (length kw + length g) w /\ display_breakable s = w.
Proof.
  intros Hk Hkw Hg Hne Hw Hn.
  assert (V : valid_utf8 (kw ++ g ++ w) = true).
  { rewrite (Forward3.keyword_valid k), (Forward.valid_gap _ _ _ Hg); [apply Hw|exact Hkw|destruct Hk as [<-|[<-|[<-|[]]]]; repeat constructor]. }
  set (s := BreakableString (at_ (length kw + length g) w) [text_part (length kw + length g) w]).
  assert (E : exists i, clear_open_at unq 0 (kw ++ g ++ w) i /\ command_of i = Some (Shell s)).
  { assert (K : clear_command_at k 0 (kw ++ g ++ w) (at_ 0 (kw ++ g ++ w)) (Shell s)).
    { exists kw, g, w, s. repeat split; try assumption; try apply Hw. apply line_text; exact Hw. }
    destruct Hk as [<-|[<-|[<-|[]]]]; [exists (IRun (RunInstruction (at_ 0 (kw ++ g ++ w)) (Shell s)))|exists (ICmd (CmdInstruction (at_ 0 (kw ++ g ++ w)) (Shell s)))
      |exists (IEntrypoint (EntrypointInstruction (at_ 0 (kw ++ g ++ w)) (Shell s)))]; (split; [exact K|reflexivity]). }
  destruct E as (i & Hi & Ei).
  assert (C : clear_document unq (kw ++ g ++ w) [i]).
  { apply clear_last. change (kw ++ g ++ w) with ([] ++ kw ++ g ++ w). apply clear_open; [constructor|exact Hi]. }
  destruct (C38_complete unq _ _ V C) as (d & E & _ & Ed & _).
  exists d, i, s. split; [exact E|]. split; [|split; [exact Ei|split; [reflexivity|]]].
  - rewrite Ed. destruct i; try discriminate Ei; reflexivity.
  - unfold display_breakable, s. cbn. rewrite app_nil_r. reflexivity.
Qed.

(** ** Cases *)

(** [[ "$x" = 1 ] && y] does not begin with a list; [[ "a" ] && y] does. *)
Example C67_shell_case : one_line (bs "[ ""$x"" = 1 ] && y") /\ never_list (bs "[ ""$x"" = 1 ] && y").
Proof.
  split; [split; [split; [discriminate|split; [repeat constructor|reflexivity]]|split; [eexists _, _; split; [reflexivity|repeat split; discriminate]|apply no_backslash; reflexivity]]|].
  apply (test_never_list 0 (bs " ") (bs """$x""") 0 (bs " ") 61%N (bs " 1 ] && y")); try discriminate; try reflexivity.
  - apply gap_blanks. reflexivity.
  - apply (quoted_simple DQUOTE (bs "$x")); [auto|reflexivity|reflexivity].
  - apply gap_blanks. reflexivity.
  - repeat split; discriminate.
Qed.

Definition forms (o : outcome dockerfile) : option (list (option bool)) :=
  match o with
  | Ok d => Some (map (fun i => option_map (fun e => match e with Exec _ => true | Shell _ => false end) (command_of i)) (d_instructions d))
  | _ => None
  end.

Example C67_case :
  forms (parse enquote_unquote (lines ["FROM x"; "RUN [ ""a"", 'b', ]"; "CMD []"; "RUN [ ""$x"" = 1 ] && y"; "ENTRYPOINT a [""b""]"]%string)) =
    Some [None; Some true; Some true; Some false; Some false] /\
  list_text (bs "[ ""a"" ]") /\ parse enquote_unquote (bs "RUN [ ""a"" ] && y") = Err EParse.
Proof.
  split; [vm_compute; reflexivity|]. split; [|vm_compute; reflexivity].
  apply (string_list 0 (bs " ") (bs """a""") [] [] 0 (bs " ")); try (apply gap_blanks; reflexivity); [|constructor|auto].
  apply (quoted_simple DQUOTE (bs "a")); [auto|reflexivity|reflexivity].
Qed.

Example C67_anywhere_case : complete (bs "FROM x") /\ quotes_apart (bs "FROM x") ([LF] ++ bs "RUN [ ""a"" ] && y") /\
  breaks (bs "FROM x") [LF] (bs "RUN [ ""a"" ] && y").
Proof.
  split.
  { apply (complete_line [] (bs "FROM x")); [left; reflexivity|repeat constructor|exists 70%N; split; [left; reflexivity|reflexivity]| |].
    - cbn. intros H. repeat (destruct H as [H|H]; [discriminate|]). exact H.
    - apply not_backslash. vm_compute. reflexivity. }
  split.
  { intros x o q v body rest E _ Hq. exfalso. assert (K : In q (bs "FROM x")) by (rewrite E; apply in_or_app; right; right; left; reflexivity).
    destruct Hq; subst q; cbn in K; repeat (destruct K as [K|K]; [discriminate|]); exact K. }
  split; [constructor|]. split; [discriminate|]. intros _ (a0 & E). apply (f_equal (@rev N)) in E. rewrite rev_app_distr in E. discriminate.
Qed.

Print Assumptions C67_form.
Print Assumptions C67_goes_on_refuted.
Print Assumptions C67_anywhere_refuted.
Print Assumptions C67_shell.
