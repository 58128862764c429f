(** C56, C57: cutting any document in two at a line break, and putting lines in there. *)

From Coq Require Import String.
From Verif Require Import Bytes BytesFacts Result Ast Convert ConvertMove Dockerfile Enquote SpecDoc SpecSyntax SpecClear SpecMove SpecJoin
  PegRules ParseEdit JoinDoc PropsDoc PropsParse.
Local Open Scope nat_scope.

(** ** When the conditions hold *)

Definition quote_free (w : bytes) : Prop := Forall (fun c => c <> DQUOTE /\ c <> SQUOTE) w.

Lemma no_quote_before a r : quote_free a -> quotes_apart a r.
Proof.
  intros H x o q v body rest E _ Hq _ _. exfalso. rewrite E in H. apply Forall_app in H. destruct H as [_ H]. inversion H as [|? ? _ H']; subst.
  inversion H' as [|? ? [H1 H2] _]; subst.
  destruct Hq; congruence.
Qed.

Lemma no_quote_after a r : quote_free r -> quotes_apart a r.
Proof.
  intros H x o q v body rest E _ Hq Hb Ev. destruct (Nat.lt_ge_cases (length body) (length v)) as [L|L]; [exact L|exfalso].
  apply (f_equal (skipn (length v))) in Ev. rewrite skipn_app, skipn_all, Nat.sub_diag in Ev. cbn [app skipn] in Ev.
  rewrite skipn_app in Ev. replace (length v - length body) with 0 in Ev by lia. cbn [skipn] in Ev. rewrite Ev in H.
  apply Forall_app in H. destruct H as [_ H]. inversion H as [|? ? [H1 H2] _]; subst. destruct Hq; congruence.
Qed.

(** Or, to be computed: every quote in [a] that may begin a string is closed in [a]. *)
Fixpoint closes (q : N) (s : bytes) : bool :=
  match s with
  | [] => false
  | c :: t => if (c =? q)%N then true else if (c =? BSLASH)%N then match t with [] => false | _ :: t' => closes q t' end else closes q t
  end.
Fixpoint quotes_closed (a : bytes) : bool :=
  match a with
  | o :: t => match t with q :: v => implb (before_string o && ((q =? DQUOTE)%N || (q =? SQUOTE)%N)) (closes q v) | [] => true end && quotes_closed t
  | [] => true
  end.

Lemma closes_first q body : q <> BSLASH -> quoted_body q body -> forall v r rest, closes q v = true -> v ++ r = body ++ q :: rest -> length body < length v.
Proof.
  intros Hq. induction 1 as [|c w Hc Hb _ _ _ IH|c w _ _ _ IH]; intros v r rest Hv E; (destruct v as [|x v]; [discriminate|]); cbn [app length closes] in *.
  - lia.
  - injection E as -> E. rewrite (proj2 (N.eqb_neq _ _) Hc), (proj2 (N.eqb_neq _ _) Hb) in Hv. specialize (IH v r rest Hv E). lia.
  - injection E as -> E. rewrite (proj2 (N.eqb_neq _ _) (not_eq_sym Hq)), N.eqb_refl in Hv. destruct v as [|y v]; [discriminate|].
    cbn [app] in E. injection E as -> E. specialize (IH v r rest Hv E). cbn [length]. lia.
Qed.

Lemma closed_apart a r : quotes_closed a = true -> quotes_apart a r.
Proof.
  intros H x o q v body rest E Ho Hq Hb Ev. refine (closes_first q body _ Hb v r rest _ Ev); [destruct Hq; subst; discriminate|].
  assert (Hq' : ((q =? DQUOTE)%N || (q =? SQUOTE)%N) = true) by (destruct Hq; subst; reflexivity).
  subst a. clear Ev. induction x as [|y x IH]; cbn [app] in H.
  - cbn [quotes_closed] in H. apply andb_true_iff in H. destruct H as [H _]. rewrite Ho, Hq' in H. exact H.
  - change (quotes_closed (y :: x ++ o :: q :: v)) with
      (match x ++ o :: q :: v with q :: v => implb (before_string y && ((q =? DQUOTE)%N || (q =? SQUOTE)%N)) (closes q v) | [] => true end
       && quotes_closed (x ++ o :: q :: v)) in H.
    apply andb_true_iff in H. apply IH, H.
Qed.

Lemma suffix_of_line x w y c : x ++ w = y ++ c -> ends_line x -> no_newline c -> exists z, w = z ++ c.
Proof.
  intros E Hx Hc. destruct (Nat.le_gt_cases (length x) (length y)) as [L|L].
  - exists (skipn (length x) y). pose proof (f_equal (skipn (length x)) E) as K. rewrite skipn_app, skipn_all, Nat.sub_diag in K. cbn [app skipn] in K.
    rewrite K, skipn_app. replace (length x - length y) with 0 by lia. reflexivity.
  - exfalso. destruct Hx as [->|(t & z & -> & Hz)]; [cbn in L; lia|]. rewrite app_length in L. cbn [length] in L.
    pose proof (f_equal (skipn (length y)) E) as K. rewrite (skipn_app (length y) y c), skipn_all, Nat.sub_diag in K. cbn [app skipn] in K.
    rewrite <- app_assoc, skipn_app in K. replace (length y - length t) with 0 in K by lia. cbn [skipn] in K. rewrite <- K in Hc.
    apply Forall_app in Hc. destruct Hc as [_ Hc]. inversion Hc. congruence.
Qed.

Lemma newline_line x n : newline n -> ends_line (x ++ n).
Proof.
  intros Hn. right. destruct Hn; [exists x, LF|exists (x ++ [CR]), LF|exists x, CR]; (split; [|reflexivity]); rewrite <- ?app_assoc; reflexivity.
Qed.
Lemma skipped_line k l x : skipped_lines k l -> ends_line x -> ends_line (x ++ l).
Proof.
  intros H. revert x. induction H as [|k b n w Hb Hn Hw IH|k b c n w Hb Hc Hn Hw IH]; intros x Hx.
  - rewrite app_nil_r. exact Hx.
  - replace (x ++ b ++ n ++ w) with (((x ++ b) ++ n) ++ w) by (rewrite <- !app_assoc; reflexivity). apply IH, newline_line, Hn.
  - replace (x ++ b ++ c ++ n ++ w) with (((x ++ b ++ c) ++ n) ++ w) by (rewrite <- !app_assoc; reflexivity). apply IH, newline_line, Hn.
Qed.

Lemma comments_only_end t : comments_only t -> exists y c, t = y ++ HASH :: c /\ no_newline c.
Proof.
  induction 1 as [b t Hb (u & -> & Hu & _)|b t n w Hb Ht Hn Hw (y & c & -> & Hc)].
  - exists b, u. auto.
  - exists (b ++ t ++ n ++ y), c. rewrite <- !app_assoc. auto.
Qed.

Definition last_solid (w : bytes) : N := match drop_while is_blank (rev w) with c :: _ => c | [] => SP end.
Lemma not_backslash w : (last_solid w =? BSLASH)%N = false -> ~ ends_in_backslash w.
Proof.
  intros H (t & b & -> & Hb). unfold last_solid in H. rewrite rev_app_distr in H. cbn [rev] in H. rewrite <- app_assoc in H.
  assert (Hr : Forall (fun c => is_blank c = true) (rev b)) by (apply Forall_rev; exact Hb). induction Hr as [|c r Hc Hr IH]; [discriminate|].
  cbn [app drop_while] in H. rewrite Hc in H. apply IH. exact H.
Qed.

(** A last line that is not empty, has no [#] and does not end in a backslash *)
Theorem complete_line x w : ends_line x -> no_newline w -> (exists c, In c w /\ is_blank c = false) -> ~ In HASH w ->
  ~ ends_in_backslash (x ++ w) -> complete (x ++ w).
Proof.
  intros Hx Hw (z & Hz & Hzb) Hh He.
  assert (Hc : forall y t, x ++ w = y ++ t -> ~ comments_only t).
  { intros y t E K. destruct (comments_only_end t K) as (y2 & c & -> & Hc). apply Hh.
    destruct (suffix_of_line x w (y ++ y2) (HASH :: c)) as (v & ->); [rewrite E, <- app_assoc; reflexivity|exact Hx|constructor; [reflexivity|exact Hc]|].
    apply in_or_app. right. left. reflexivity. }
  split; [exact He|]. split; [|split].
  - intros y c0 t E (b & n & -> & Hb & Hn) (k & l & b2 & -> & Hl & [Hb2|(b1 & c & -> & Hb1 & Hct)]).
    + assert (Ey : ends_line (y ++ (BSLASH :: b ++ n) ++ l)).
      { replace (y ++ (BSLASH :: b ++ n) ++ l) with (((y ++ BSLASH :: b) ++ n) ++ l) by (rewrite <- !app_assoc; cbn [app]; rewrite <- ?app_assoc; reflexivity).
        apply (skipped_line k); [exact Hl|apply newline_line; exact Hn]. }
      destruct (suffix_of_line (y ++ (BSLASH :: b ++ n) ++ l) b2 x w) as (v & ->); [rewrite E, <- !app_assoc; reflexivity|exact Ey|exact Hw|].
      apply Forall_app in Hb2. destruct Hb2 as [_ Hb2]. rewrite Forall_forall in Hb2. specialize (Hb2 z Hz). cbn beta in Hb2. congruence.
    + apply (Hc (y ++ (BSLASH :: b ++ n) ++ l) (b1 ++ c)); [rewrite E, <- !app_assoc; reflexivity|]. constructor; assumption.
  - intros y v t E _ _. apply (Hc (y ++ v) t). rewrite E, <- app_assoc. reflexivity.
  - intros y kw b v t E _ _ _ _ _. apply (Hc (y ++ kw ++ b ++ v) t). rewrite E, <- !app_assoc. reflexivity.
Qed.

(** ** C56 *)

(** For any two texts, well formed or not: if the first asks for no further line and
    closes its quotes, both parse exactly if they parse together, and what comes out is
    that of the first followed by that of the second. *)
Theorem C56_joined unq a n b : valid_utf8 a = true -> valid_utf8 b = true -> complete a -> quotes_apart a (n ++ b) -> breaks a n b ->
  (forall da db, parse unq a = Ok da -> parse unq b = Ok db ->
    exists d, parse unq (a ++ n ++ b) = Ok d /\ d_content d = a ++ n ++ b /\
      d_instructions d = d_instructions da ++
        map (later (length (a ++ n)) (count_from (d_instructions da))) (d_instructions db) /\
      d_global_args d = d_global_args da ++
        (if existsb is_from_b (d_instructions da) then []
         else map (move_arg (fun x => length (a ++ n) + x)) (d_global_args db))) /\
  (forall d, parse unq (a ++ n ++ b) = Ok d -> exists da db, parse unq a = Ok da /\ parse unq b = Ok db) /\
  (forall da e, parse unq a = Ok da -> parse unq b = Err e -> parse unq (a ++ n ++ b) = Err e).
Proof.
  intros Ha Hb HC HQ HB. destruct (join_parse unq a n b Ha Hb HC HQ HB) as (H1 & H2 & H3). split; [|split; assumption].
  intros da db Ea Eb. destruct (H1 da db Ea Eb) as (d & E & Ec & El). exists d. split; [exact E|]. split; [exact Ec|]. split; [exact El|].
  exact (join_args unq _ _ _ _ _ _ _ _ E Ea Eb El).
Qed.

(** The error of the whole: a syntax error if either part has one, otherwise the first
    error. *)
Theorem C56_errors unq a n b : valid_utf8 a = true -> valid_utf8 b = true -> complete a -> quotes_apart a (n ++ b) -> breaks a n b ->
  (parse unq a = Err EParse \/ parse unq b = Err EParse -> parse unq (a ++ n ++ b) = Err EParse) /\
  (forall e, parse unq a = Err e -> parse unq b <> Err EParse -> parse unq (a ++ n ++ b) = Err e) /\
  (forall da e, parse unq a = Ok da -> parse unq b = Err e -> parse unq (a ++ n ++ b) = Err e).
Proof.
  intros Ha Hb HC HQ HB. destruct (join_parse unq a n b Ha Hb HC HQ HB) as (_ & _ & H3).
  destruct (join_errors unq a n b Ha Hb HC HQ HB) as [H4 H5]. split; [|split; [exact H4|exact H3]].
  intros [H|H]; [|apply H5; exact H]. destruct (C01_total unq b Hb) as [[db Eb]|[e Eb]].
  - apply H4; [exact H|congruence].
  - destruct e; try (apply H4; [exact H|congruence]). apply H5. exact Eb.
Qed.

Example C56_error_case : complete (bs "LABEL a=""\z""") /\
  parse enquote_unquote (bs "LABEL a=""\z""") = Err EUnescape /\ parse enquote_unquote (bs "FROM") = Err EParse /\
  parse enquote_unquote (bs "LABEL a=""\z""" ++ [LF] ++ bs "FROM") = Err EParse /\
  parse enquote_unquote (bs "LABEL a=""\z""" ++ [LF] ++ bs "FROM x") = Err EUnescape.
Proof.
  split; [|repeat split; vm_compute; reflexivity]. apply (complete_line [] (bs "LABEL a=""\z""")).
  - left. reflexivity.
  - repeat constructor.
  - exists 76%N. split; [left; reflexivity|reflexivity].
  - cbn. intros H. repeat (destruct H as [H|H]; [discriminate|]). exact H.
  - apply not_backslash. vm_compute. reflexivity.
Qed.

(** Two documents that are not clearly written: an empty line after a continuation, blanks
    at the end, a misspelt instruction, an unclosed quote *)
Definition rough : bytes := bs "arg v" ++ [CR; LF] ++ bs "FROM x \" ++ [LF; LF] ++ bs "AS y" ++ [LF] ++ bs "FOO ""c" ++ [LF] ++ bs "FROMM y  ".
Example C56_case : valid_utf8 rough = true /\ complete rough /\ quotes_apart rough ([LF] ++ bs "FROM z") /\ breaks rough [LF] (bs "FROM z") /\
  reads rough (fun d => length (d_instructions d) = 4) /\
  reads (rough ++ [LF] ++ bs "FROM z") (fun d => length (d_instructions d) = 5 /\ count_from (d_instructions d) = 2).
Proof.
  split; [reflexivity|]. split.
  { apply (complete_line (firstn 29 rough) (skipn 29 rough)).
    - right. exists (firstn 28 rough), LF. split; reflexivity.
    - repeat constructor.
    - exists 70%N. split; [left; reflexivity|reflexivity].
    - cbn. intros H. repeat (destruct H as [H|H]; [discriminate|]). exact H.
    - apply not_backslash. vm_compute. reflexivity. }
  split; [apply no_quote_after; repeat constructor; discriminate|]. split.
  { split; [constructor|]. split; [discriminate|]. intros _ (a0 & E). apply (f_equal (fun l => last l 0%N)) in E. rewrite last_last in E. discriminate. }
  split; [split; [reflexivity|]; eexists; split; [vm_compute; reflexivity|reflexivity]|]. split; [reflexivity|]. eexists; split; [vm_compute; reflexivity|split; reflexivity].
Qed.

Definition how_many (o : outcome dockerfile) : option nat := match o with Ok d => Some (length (d_instructions d)) | _ => None end.
Definition counts (a b : bytes) : option nat * option nat * option nat :=
  (how_many (parse enquote_unquote a), how_many (parse enquote_unquote b), how_many (parse enquote_unquote (a ++ [LF] ++ b))).

(** Each of the conditions is needed: a backslash at the end, a continuation, a comment
    directly after the first word, a comment after ENV and a name, an unclosed quote,
    a carriage return before the line feed. *)
Example C56_conditions :
  counts (bs "RUN x \") (bs "RUN y") = (Some 1, Some 1, Some 1) /\
  counts (bs "ENV a=b \" ++ [LF]) (bs "FOO y") = (Some 1, Some 1, None) /\
  counts (bs "RUN # c") (bs "RUN y") = (Some 1, Some 1, Some 1) /\
  counts (bs "ENV a # c") (bs "RUN y") = (Some 1, Some 1, Some 1) /\
  counts (bs "ENV a ""b") (bs "RUN """) = (Some 1, Some 1, Some 1).
Proof. repeat split; vm_compute; reflexivity. Qed.

(** ** C57 *)

(** Blank lines and comment lines at a line break of any text, even one that is
    rejected *)
Theorem C57_insert_lines unq a n k l b : valid_utf8 a = true -> valid_utf8 b = true -> complete a ->
  breaks a n b -> quotes_apart a (n ++ b) -> breaks a n (l ++ b) -> quotes_apart a (n ++ l ++ b) ->
  skipped_lines k l -> ((exists l0, l = l0 ++ [CR]) -> ~ begins_with LF b) ->
  (forall d, parse unq (a ++ n ++ b) = Ok d ->
    parse unq (a ++ n ++ l ++ b) = Ok (move_dockerfile (insertion (length (a ++ n)) (length l)) (a ++ n ++ l ++ b) d)) /\
  (forall e, parse unq (a ++ n ++ b) = Err e -> parse unq (a ++ n ++ l ++ b) = Err e).
Proof.
  intros Ha Hb HC HB1 HQ1 HB2 HQ2 Hl Hcr. rewrite (insert_parse unq a n k l b Ha Hb HC HB1 HQ1 HB2 HQ2 Hl Hcr).
  split; intros ? ->; reflexivity.
Qed.

(** A line break at the end of a text makes no difference. *)
Theorem C57_last_newline unq a n : valid_utf8 a = true -> complete a -> quotes_apart a n -> breaks a n [] ->
  (forall d, parse unq a = Ok d -> exists d', parse unq (a ++ n) = Ok d' /\
    d_instructions d' = d_instructions d /\ d_global_args d' = d_global_args d) /\
  (forall d', parse unq (a ++ n) = Ok d' -> exists d, parse unq a = Ok d).
Proof.
  intros Ha HC HQ HB. assert (E0 : parse unq [] = Ok (Dockerfile [] [] [])) by (vm_compute; reflexivity).
  destruct (C56_joined unq a n [] Ha eq_refl HC) as (H1 & H2 & _); [rewrite app_nil_r; exact HQ|exact HB|]. rewrite app_nil_r in *. split.
  - intros d E. destruct (H1 d _ E E0) as (d' & E' & _ & El & Eg). exists d'. split; [exact E'|]. cbn [d_instructions d_global_args map] in *.
    rewrite app_nil_r in El. split; [exact El|]. rewrite Eg. destruct (existsb is_from_b (d_instructions d)); apply app_nil_r.
  - intros d' E'. destruct (H2 d' E') as (da & db & Ea & _). eauto.
Qed.

Definition notes : bytes := bs "# ""new"" \" ++ [LF] ++ bs "  " ++ [CR; LF].
Example C57_case : skipped_lines 1 notes /\ quotes_apart rough ([LF] ++ bs "# new" ++ [LF] ++ bs "FROM z") /\
  reads (rough ++ [LF] ++ bs "# new" ++ [LF] ++ bs "FROM z") (fun d => length (d_instructions d) = 5) /\
  reads (bs "FROM x" ++ [LF] ++ notes ++ bs "RUN y") (fun d => length (d_instructions d) = 2).
Proof.
  split. { apply (skipped_comment 0 [] (bs "# ""new"" \") [LF] (bs "  " ++ [CR; LF])); [constructor|exists (bs " ""new"" \"); repeat split; repeat constructor|constructor|].
    apply (skipped_empty 0 (bs "  ") [CR; LF] []); [repeat constructor|constructor|constructor]. }
  split; [apply no_quote_after; repeat constructor; discriminate|]. split; (split; [reflexivity|]); eexists; (split; [vm_compute; reflexivity|reflexivity]).
Qed.

(** Quoted strings on both sides of a line break, and comments with quotes *)
Definition labelled : bytes := bs "FROM x" ++ [LF] ++ bs "# don't" ++ [LF] ++ bs "LABEL a=""it's"" 'b'='\''" ++ [LF] ++ bs "CMD [""x"", 'y']".
Example C56_quotes_case : complete labelled /\ (forall b, quotes_apart labelled ([LF] ++ b)) /\ breaks labelled [LF] labelled /\
  reads (labelled ++ [LF] ++ labelled) (fun d => length (d_instructions d) = 6).
Proof.
  split; [|split; [|split]].
  - apply (complete_line (firstn 39 labelled) (skipn 39 labelled)).
    + right. exists (firstn 38 labelled), LF. split; reflexivity.
    + repeat constructor.
    + exists 67%N. split; [left; reflexivity|reflexivity].
    + cbn. intros H. repeat (destruct H as [H|H]; [discriminate|]). exact H.
    + apply not_backslash. vm_compute. reflexivity.
  - intros b. apply closed_apart. vm_compute. reflexivity.
  - split; [constructor|]. split; [discriminate|]. intros _ (a0 & E). apply (f_equal (fun l => last l 0%N)) in E. rewrite last_last in E. discriminate.
  - split; [reflexivity|]. eexists; split; [vm_compute; reflexivity|reflexivity].
Qed.

Print Assumptions closed_apart.
Print Assumptions complete_line.
Print Assumptions C56_joined.
Print Assumptions C56_errors.
Print Assumptions C57_insert_lines.
Print Assumptions C57_last_newline.
