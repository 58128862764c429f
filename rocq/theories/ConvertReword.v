(** Converting the tokens of a text and of the same text with a piece of it reworded. *)

From Coq Require Import String.
From Verif Require Import Bytes BytesFacts Grammar Peg Result Ast Splicer Image Convert Dockerfile SpecImage SpecSyntax SpecParts SpecMove SpecReword
  Shift ConvertMove Once ConvertSame Spelt Oracle EqSwap.
Local Open Scope nat_scope.

Section ConvertReword.
Variable unq : bytes -> option bytes.
Variables src src' : bytes.
Variables lo hi : nat.
Variable new : bytes.
Notation g := (replacement lo hi (length new)).
Notation mt := (move_tree g).
Notation re_string := (reword_string lo hi new).
Notation re_breakable := (reword_breakable lo hi new).
Notation re_flag := (reword_flag lo hi new).

(** The two texts, between positions that are not inside the piece *)
Hypothesis worded : forall x y, (x <= lo \/ hi <= x) -> (y <= lo \/ hi <= y) ->
  slice src' (g x) (g y) = reword_text lo hi new (Span x y) (slice src x y).
Hypothesis new_unquoted : new <> [] /\ starts_quoted new = false.

Definition fit (sp : span) : Prop := around lo hi sp = true -> starts_quoted (text_at src sp) = false.
Definition fit_string (x : spanned_string) : Prop := fit (ss_span x).
Definition fit_value (x : breakable_string) : Prop := fit (br_span x).
Definition any {A} (x : A) : Prop := True.
Definition fit_array (x : string_array) : Prop := Forall fit_string (sa_elements x).
Definition fit_command (x : shell_or_exec) : Prop := match x with Shell s => True | Exec a => fit_array a end.
Definition fit_flag (x : flag) : Prop := fit_string (fl_name x) /\ fit_string (fl_value x).
Definition fit_label (x : label) : Prop := fit_string (lb_name x) /\ fit_string (lb_value x).
Definition fit_var (x : env_var) : Prop := fit_string (ev_key x) /\ fit_value (ev_value x).
Definition fit_instruction (i : instruction) : Prop :=
  match i with
  | IFrom x => Forall fit_flag (from_flags x) /\ around lo hi (ss_span (from_image x)) = false /\ same_option fit_string (from_alias x)
  | IArg x => fit_string (arg_name x) /\ same_option fit_string (arg_value x)
  | ILabel x => Forall fit_label (label_labels x)
  | IRun x => fit_command (run_expr x)
  | IEntrypoint x => fit_command (entrypoint_expr x)
  | ICmd x => fit_command (cmd_expr x)
  | ICopy x => Forall fit_flag (copy_flags x) /\ Forall fit_string (copy_sources x) /\ fit_string (copy_destination x)
  | IEnv x => Forall fit_var (env_vars x)
  | IMisc x => fit_string (misc_name x)
  end.

Definition neat (t : tree) : Prop := tidy src t /\ clear_of lo hi t.
Lemma neat_children t : neat t -> Forall neat (t_children t).
Proof.
  intros [H1 H2]. apply tidy_children in H1. destruct H2 as [r x y l _ _ H2]. cbn [t_children] in *.
  rewrite Forall_forall in *. intros t Ht. split; auto.
Qed.
Lemma head_neat t l : Forall neat (t :: l) -> neat t.
Proof. inversion 1. assumption. Qed.
Lemma tail_neat t l : Forall neat (t :: l) -> Forall neat l.
Proof. inversion 1. assumption. Qed.

Lemma neat_text t : neat t -> as_str src' (mt t) = reword_text lo hi new (span_of t) (as_str src t).
Proof. intros [_ H]. destruct H as [r x y l Hx Hy _]. exact (worded x y Hx Hy). Qed.

Lemma reword_unquoted sp t : starts_quoted t = false -> starts_quoted (reword_text lo hi new sp t) = false.
Proof.
  intros H. unfold reword_text. destruct (around lo hi sp); [|exact H]. destruct new_unquoted as [Hn Hq].
  destruct t as [|x t].
  - rewrite firstn_nil. destruct new; [congruence|exact Hq].
  - destruct (lo - s_start sp); cbn [firstn app]; [|exact H]. destruct new; [congruence|exact Hq].
Qed.

Lemma not_around sp t : around lo hi sp = false -> reword_text lo hi new sp t = t.
Proof. intros H. unfold reword_text. rewrite H. reflexivity. Qed.

(** ** Slots that are filled at most once *)

Definition free2 {A B} (K1 K2 : class) (st : option A * option B) (l : list tree) : Prop :=
  let '(a, b) := st in slot K1 a l /\ slot K2 b l /\ Forall neat l.

Lemma start2 {A B} t K1 K2 : neat t -> fields_of (t_rule t) = [K1; K2] -> free2 K1 K2 (@None A, @None B) (t_children t).
Proof.
  intros H E. destruct (@ConvertSame.start2 A B t K1 K2 (proj1 (proj1 H)) E) as (H1 & H2 & _). split; [exact H1|]. split; [exact H2|]. apply neat_children. exact H.
Qed.

Lemma fill1 {A B} (f : A -> A) (h : B -> B) (P : A -> Prop) (Q : B -> Prop) K1 K2 a (b : option B) t l (o o' : outcome A) st' :
  free2 K1 K2 (a, b) (t :: l) -> K1 (t_rule t) = true -> (neat t -> forall x, o = Ok x -> P x -> o' = Ok (f x)) ->
  (x <- o;; Ok (Some x, b)) = Ok st' ->
  free2 K1 K2 st' l /\ (same2 P Q st' -> same2 P Q (a, b) /\ (x <- o';; Ok (Some x, option_map h b)) = Ok (move2 f h st')).
Proof.
  intros (H1 & H2 & H3) HK Ho H. apply bind_ok in H. destruct H as (x & E & H). injection H as <-.
  destruct (slot_fill _ _ _ _ H1 HK) as [-> H1']. split.
  - split; [apply H1'|]. split; [eapply slot_pass; exact H2|]. inversion H3; assumption.
  - intros [K K']. split; [split; [exact I|exact K']|]. rewrite (Ho (head_neat _ _ H3) x E K). reflexivity.
Qed.

Lemma fill2 {A B} (f : A -> A) (h : B -> B) (P : A -> Prop) (Q : B -> Prop) K1 K2 (a : option A) b t l (o o' : outcome B) st' :
  free2 K1 K2 (a, b) (t :: l) -> K2 (t_rule t) = true -> (neat t -> forall x, o = Ok x -> Q x -> o' = Ok (h x)) ->
  (x <- o;; Ok (a, Some x)) = Ok st' ->
  free2 K1 K2 st' l /\ (same2 P Q st' -> same2 P Q (a, b) /\ (x <- o';; Ok (option_map f a, Some x)) = Ok (move2 f h st')).
Proof.
  intros (H1 & H2 & H3) HK Ho H. apply bind_ok in H. destruct H as (x & E & H). injection H as <-.
  destruct (slot_fill _ _ _ _ H2 HK) as [-> H2']. split.
  - split; [eapply slot_pass; exact H1|]. split; [apply H2'|]. inversion H3; assumption.
  - intros [K K']. split; [split; [exact K|exact I]|]. rewrite (Ho (head_neat _ _ H3) x E K'). reflexivity.
Qed.

Lemma fill_none {A B} (f : A -> A) (h : B -> B) (P : A -> Prop) (Q : B -> Prop) K1 K2 (a : option A) (b : option B) t l st' :
  free2 K1 K2 (a, b) (t :: l) -> Ok (a, b) = Ok st' ->
  free2 K1 K2 st' l /\ (same2 P Q st' -> same2 P Q (a, b) /\ Ok (option_map f a, option_map h b) = Ok (move2 f h st')).
Proof.
  intros (H1 & H2 & H3) H. injection H as <-. split; [|auto].
  split; [eapply slot_pass; exact H1|]. split; [eapply slot_pass; exact H2|]. inversion H3; assumption.
Qed.

(** ** Strings *)

Lemma string_span t x : parse_string unq src t = Ok x -> ss_span x = span_of t.
Proof. unfold parse_string. intros H. apply bind_ok in H. destruct H as (v & _ & H). injection H as <-. reflexivity. Qed.

Lemma string_field t : neat t -> forall x, parse_string unq src t = Ok x -> fit_string x -> parse_string unq src' (mt t) = Ok (re_string x).
Proof.
  intros Ht x H K. pose proof (string_span t x H) as E. unfold fit_string, fit in K. rewrite E, <- as_str_text in K.
  unfold parse_string in *. rewrite (neat_text t Ht), span_move. destruct (around lo hi (span_of t)) eqn:Ea.
  - rewrite (reword_unquoted _ _ (K eq_refl)). rewrite (K eq_refl) in H. cbn [bind] in *. injection H as <-. reflexivity.
  - rewrite (not_around _ _ Ea). apply bind_ok in H. destruct H as (v & -> & H). injection H as <-. cbn [bind].
    unfold reword_string. cbn [ss_span ss_content]. rewrite (not_around _ v Ea). reflexivity.
Qed.

Lemma quoted_starts w : quoted_text w -> starts_quoted w = true.
Proof. intros (q & body & Hq & -> & _). cbn [starts_quoted]. destruct Hq; subst q; reflexivity. Qed.

Lemma clean_field t : quoted_text (as_str src t) -> neat t -> forall x, unquote_clean unq src t = Ok x -> fit_string x ->
  unquote_clean unq src' (mt t) = Ok (re_string x).
Proof.
  intros Hq Ht x H K. assert (E : ss_span x = span_of t).
  { unfold unquote_clean in H. apply bind_ok in H. destruct H as (v & _ & H). injection H as <-. reflexivity. }
  unfold fit_string, fit in K. rewrite E, <- as_str_text in K.
  unfold unquote_clean in *. rewrite (neat_text t Ht), span_move. destruct (around lo hi (span_of t)) eqn:Ea.
  - rewrite (quoted_starts _ Hq) in K. specialize (K eq_refl). discriminate.
  - rewrite (not_around _ _ Ea). apply bind_ok in H. destruct H as (v & -> & H). injection H as <-. cbn [bind].
    unfold reword_string. cbn [ss_span ss_content]. rewrite (not_around _ v Ea). reflexivity.
Qed.

Lemma neat_spells t : neat t -> spells (t_rule t) (as_str src t).
Proof. intros [H _]. apply tidy_spells. exact H. Qed.

Lemma clean_field' t : In (t_rule t) [R_label_quoted_name; R_label_single_quoted_name; R_label_quoted_value] ->
  neat t -> forall x, unquote_clean unq src t = Ok x -> fit_string x -> unquote_clean unq src' (mt t) = Ok (re_string x).
Proof.
  intros Hr Ht. apply clean_field; [|exact Ht]. apply neat_spells in Ht. cbn [In] in Hr.
  repeat (destruct Hr as [Hr|Hr]; [rewrite <- Hr in Ht; exact Ht|]). contradiction.
Qed.

(** ** The converters *)

Lemma array_same t x : neat t -> parse_string_array unq src t = Ok x -> fit_array x -> parse_string_array unq src' (mt t) = Ok (reword_array lo hi new x).
Proof.
  intros Ht. unfold parse_string_array. intros H HP. apply bind_ok in H. destruct H as (l & E & H). injection H as <-.
  unfold fit_array in HP. cbn [sa_elements] in HP. rewrite span_move.
  eapply (for_each_bind g (map re_string) (Forall fit_string) (fun _ l => Forall neat l));
    [exact E|apply children_move|reflexivity|apply neat_children; exact Ht|exact HP|reflexivity|].
  intros st u l' st' Hf E'. cbn beta iota in E' |- *. rewrite rule_move.
  split; [eapply tail_neat; exact Hf|]. intros HP'. apply head_neat in Hf. destruct (t_rule u); try discriminate; [injection E' as <-; auto|].
    eapply grow; [intros y; apply string_field; exact Hf|exact E'|exact HP'].
Qed.

Lemma breakable_inner_same t : neat t -> forall l, parse_any_breakable_inner src t = Ok l ->
  parse_any_breakable_inner src' (mt t) = Ok (map (reword_component lo hi new) l).
Proof.
  induction t as [r x y l IH] using tree_induction. intros Hn. apply neat_children in Hn. cbn [t_children] in Hn.
  cbn [move_tree parse_any_breakable_inner].
  assert (K : forall acc res,
    (fix loop (l : list tree) (components : list breakable_component) {struct l} :=
     match l with
     | [] => Ok components
     | field :: l' =>
       match t_rule field with
       | R_any_breakable =>
         more <- parse_any_breakable_inner src field;; loop l' (components ++ more)
       | R_comment =>
         loop l' (components ++ [BComment (SpannedComment (span_of field) (as_str src field))])
       | R_any_content =>
         loop l' (components ++ [BString (SpannedString (span_of field) (as_str src field))])
       | r => unexpected_token r
       end
     end) l acc = Ok res ->
    (fix loop (l : list tree) (components : list breakable_component) {struct l} :=
     match l with
     | [] => Ok components
     | field :: l' =>
       match t_rule field with
       | R_any_breakable =>
         more <- parse_any_breakable_inner src' field;; loop l' (components ++ more)
       | R_comment =>
         loop l' (components ++ [BComment (SpannedComment (span_of field) (as_str src' field))])
       | R_any_content =>
         loop l' (components ++ [BString (SpannedString (span_of field) (as_str src' field))])
       | r => unexpected_token r
       end
     end) (map mt l) (map (reword_component lo hi new) acc) = Ok (map (reword_component lo hi new) res)).
  { induction l as [|t l IHl]; intros acc res H; [injection H as <-; auto|]. cbn [map].
    inversion IH as [|? ? It IH']. subst. specialize (IHl IH' (tail_neat _ _ Hn)). apply head_neat in Hn.
    rewrite rule_move, ?(neat_text t Hn), ?span_move. destruct (t_rule t); try discriminate.
    - apply IHl in H. rewrite map_app in H. exact H.
    - apply IHl in H. rewrite map_app in H. exact H.
    - apply bind_ok in H. destruct H as (more & E & H). apply IHl in H. rewrite (It Hn more E). rewrite map_app in H. exact H. }
  intros res H. exact (K [] res H).
Qed.

Lemma breakable_same t : neat t -> forall x, parse_any_breakable src t = Ok x -> parse_any_breakable src' (mt t) = Ok (re_breakable x).
Proof.
  intros Ht x. unfold parse_any_breakable. intros H. apply bind_ok in H. destruct H as (l & E & H). injection H as <-.
  rewrite (breakable_inner_same t Ht l E), span_move. reflexivity.
Qed.

Lemma field_reword t v : breakable_of_field (mt t) (reword_text lo hi new (span_of t) v) = re_breakable (breakable_of_field t v).
Proof. unfold breakable_of_field. rewrite span_move. reflexivity. Qed.

Lemma regroup {A B C} (o : outcome A) (n : B) (f : A -> C) : (v <- o;; Ok (n, Some (f v))) = (x <- (v <- o;; Ok (f v));; Ok (n, Some x)).
Proof. destruct o; reflexivity. Qed.

Lemma quoted_field t : In (t_rule t) [R_env_pair_quoted_value; R_env_single_quoted_value] -> neat t -> forall x,
  (v <- unquote unq (as_str src t);; Ok (breakable_of_field t v)) = Ok x -> fit_value x ->
  (v <- unquote unq (as_str src' (mt t));; Ok (breakable_of_field (mt t) v)) = Ok (re_breakable x).
Proof.
  intros Hr Ht x K HP. apply bind_ok in K. destruct K as (u & K & Ku). injection Ku as <-.
  unfold fit_value, fit in HP. change (br_span (breakable_of_field t u)) with (span_of t) in HP. rewrite <- as_str_text in HP.
  assert (Hq : quoted_text (as_str src t)).
  { apply neat_spells in Ht. cbn [In] in Hr. repeat (destruct Hr as [Hr|Hr]; [rewrite <- Hr in Ht; exact Ht|]). contradiction. }
  rewrite (neat_text t Ht). destruct (around lo hi (span_of t)) eqn:Ea.
  - rewrite (quoted_starts _ Hq) in HP. specialize (HP eq_refl). discriminate.
  - rewrite (not_around _ _ Ea), K. cbn [bind]. rewrite <- field_reword, (not_around _ _ Ea). reflexivity.
Qed.

Lemma from_flag_same t x : neat t -> t_rule t = R_from_flag -> from_flag_of unq src t = Ok x -> fit_flag x ->
  from_flag_of unq src' (mt t) = Ok (reword_flag lo hi new x).
Proof.
  intros Ht Er H HP. unfold from_flag_of in *. apply bind_ok in H. destruct H as ([n v] & E & H).
  apply bind_ok in H. destruct H as (n' & En & H). apply bind_ok in H. destruct H as (v' & Ev & H). injection H as <-.
  destruct n as [n|]; [|discriminate]. destruct v as [v|]; [|discriminate]. injection En as <-. injection Ev as <-.
  rewrite span_move. eapply (for_each_bind g (move2 (reword_string lo hi new) (reword_string lo hi new)) (same2 fit_string fit_string));
    [exact E|apply children_move|reflexivity|eapply start2; [exact Ht|rewrite Er; reflexivity]|exact HP|reflexivity|].
  clear - worded new_unquoted. intros [n v] t l st' Hf E. cbn beta iota in E |- *. cbn [move2]. rewrite rule_move.
  destruct (t_rule t) eqn:Er; try discriminate.
    + eapply fill1; [exact Hf|rewrite Er; reflexivity|apply string_field|exact E].
    + eapply fill2; [exact Hf|rewrite Er; reflexivity|apply string_field|exact E].
Qed.

Lemma copy_flag_same t x : neat t -> t_rule t = R_copy_flag -> copy_flag_of unq src t = Ok x -> fit_flag x ->
  copy_flag_of unq src' (mt t) = Ok (reword_flag lo hi new x).
Proof.
  intros Ht Er H HP. unfold copy_flag_of in *. apply bind_ok in H. destruct H as ([n v] & E & H).
  apply bind_ok in H. destruct H as (n' & En & H). apply bind_ok in H. destruct H as (v' & Ev & H). injection H as <-.
  destruct n as [n|]; [|discriminate]. destruct v as [v|]; [|discriminate]. injection En as <-. injection Ev as <-.
  rewrite span_move. eapply (for_each_bind g (move2 (reword_string lo hi new) (reword_string lo hi new)) (same2 fit_string fit_string));
    [exact E|apply children_move|reflexivity|eapply start2; [exact Ht|rewrite Er; reflexivity]|exact HP|reflexivity|].
  clear - worded new_unquoted. intros [n v] t l st' Hf E. cbn beta iota in E |- *. cbn [move2]. rewrite rule_move.
  destruct (t_rule t) eqn:Er; try discriminate.
    + eapply fill1; [exact Hf|rewrite Er; reflexivity|apply string_field|exact E].
    + eapply fill2; [exact Hf|rewrite Er; reflexivity|apply string_field|exact E].
Qed.

Lemma arg_same t x : neat t -> t_rule t = R_arg -> arg_of unq src t = Ok x -> fit_instruction (IArg x) ->
  arg_of unq src' (mt t) = Ok (reword_arg lo hi new x).
Proof.
  intros Ht Er H HP. unfold arg_of in *. apply bind_ok in H. destruct H as ([n v] & E & H).
  apply bind_ok in H. destruct H as (n' & En & H). injection H as <-.
  destruct n as [n|]; [|discriminate]. injection En as <-.
  rewrite span_move. eapply (for_each_bind g (move2 (reword_string lo hi new) (reword_string lo hi new)) (same2 fit_string fit_string));
    [exact E|apply children_move|reflexivity|eapply start2; [exact Ht|rewrite Er; reflexivity]|exact HP|reflexivity|].
  clear - worded new_unquoted. intros [n v] t l st' Hf E. cbn beta iota in E |- *. cbn [move2]. rewrite rule_move.
  destruct (t_rule t) eqn:Er; try discriminate.
    + eapply fill_none; [exact Hf|exact E].
    + eapply fill1; [exact Hf|rewrite Er; reflexivity|apply string_field|exact E].
    + eapply fill2; [exact Hf|rewrite Er; reflexivity|apply string_field|exact E].
    + eapply fill2; [exact Hf|rewrite Er; reflexivity|apply string_field|exact E].
Qed.

Lemma label_same t x : neat t -> t_rule t = R_label_pair \/ t_rule t = R_label_single ->
  label_of unq src t = Ok x -> fit_label x -> label_of unq src' (mt t) = Ok (reword_label lo hi new x).
Proof.
  intros Ht Er H HP. unfold label_of in *. apply bind_ok in H. destruct H as ([n v] & E & H).
  apply bind_ok in H. destruct H as (n' & En & H). apply bind_ok in H. destruct H as (v' & Ev & H). injection H as <-.
  destruct n as [n|]; [|discriminate]. destruct v as [v|]; [|discriminate]. injection En as <-. injection Ev as <-.
  rewrite span_move. eapply (for_each_bind g (move2 (reword_string lo hi new) (reword_string lo hi new)) (same2 fit_string fit_string));
    [exact E|apply children_move|reflexivity|eapply start2; [exact Ht|destruct Er as [Er|Er]; rewrite Er; reflexivity]|exact HP|reflexivity|].
  clear - worded new_unquoted. intros [n v] t l st' Hf E. cbn beta iota in E |- *. cbn [move2]. rewrite rule_move.
  destruct (t_rule t) eqn:Er; try discriminate; try (eapply fill_none; [exact Hf|exact E]);
    first [eapply fill1; [exact Hf|rewrite Er; reflexivity|apply string_field|exact E]
          |eapply fill1; [exact Hf|rewrite Er; reflexivity|apply clean_field'; rewrite Er; cbn [In]; tauto|exact E]
          |eapply fill2; [exact Hf|rewrite Er; reflexivity|apply string_field|exact E]
          |eapply fill2; [exact Hf|rewrite Er; reflexivity|apply clean_field'; rewrite Er; cbn [In]; tauto|exact E]].
Qed.

Lemma label_instruction_same t x : neat t -> label_instruction_of unq src t = Ok x -> fit_instruction (ILabel x) ->
  label_instruction_of unq src' (mt t) = Ok (LabelInstruction (move_span g (label_span x)) (map (reword_label lo hi new) (label_labels x))).
Proof.
  intros Ht. unfold label_instruction_of. intros H HP. apply bind_ok in H. destruct H as (l & E & H). injection H as <-.
  rewrite span_move. eapply (for_each_bind g (map (reword_label lo hi new)) (Forall fit_label) (fun _ l => Forall neat l));
    [exact E|apply children_move|reflexivity|apply neat_children; exact Ht|exact HP|reflexivity|].
  clear - worded new_unquoted. intros st t l st' Hf E. cbn beta iota in E |- *. rewrite rule_move.
  split; [eapply tail_neat; exact Hf|]. intros HP. apply head_neat in Hf.
    destruct (t_rule t) eqn:Er; try discriminate; try (injection E as <-; auto; fail);
      (eapply grow; [intros x; apply label_same; [exact Hf|tauto]|exact E|exact HP]).
Qed.

Lemma command_same r1 r2 t x : neat t -> shell_or_exec_of unq src r1 r2 t = Ok x -> fit_command x ->
  shell_or_exec_of unq src' r1 r2 (mt t) = Ok (reword_command lo hi new x).
Proof.
  intros Ht. apply neat_children in Ht. unfold shell_or_exec_of. rewrite children_move. destruct (t_children t) as [|u l]; [discriminate|]. cbn [map]. rewrite rule_move.
  apply head_neat in Ht.
  destruct (rule_eq_dec (t_rule u) r1).
  - intros H HP. apply bind_ok in H. destruct H as (a & E & H). injection H as <-. rewrite (array_same u a Ht E HP). reflexivity.
  - destruct (rule_eq_dec (t_rule u) r2); [|discriminate]. intros H HP. apply bind_ok in H. destruct H as (a & E & H). injection H as <-.
    rewrite (breakable_same u Ht a E). reflexivity.
Qed.

Lemma pop_same (l a : list spanned_string) b : pop l = Some (a, b) -> Forall fit_string a -> fit_string b -> Forall fit_string l.
Proof.
  revert a b. induction l as [|x l IH]; intros a b H Ha Hb; [discriminate|]. cbn [pop] in H.
  destruct (pop l) as [[a' b']|] eqn:E.
  - injection H as <- <-. inversion Ha; subst. constructor; [assumption|]. eapply IH; [reflexivity|eassumption|exact Hb].
  - injection H as <- <-. destruct l as [|y l]; [constructor; [exact Hb|constructor]|].
    cbn [pop] in E. destruct (pop l) as [[]|]; discriminate.
Qed.

Lemma copy_same t x : neat t -> copy_of unq src t = Ok x -> fit_instruction (ICopy x) -> copy_of unq src' (mt t) =
  Ok (CopyInstruction (move_span g (copy_span x)) (map (reword_flag lo hi new) (copy_flags x))
      (map (reword_string lo hi new) (copy_sources x)) (reword_string lo hi new (copy_destination x))).
Proof.
  intros Ht H HP. unfold copy_of in *. apply bind_ok in H. destruct H as ([fl ps] & E & H).
  destruct (length ps <? 2) eqn:El; [discriminate|]. destruct (pop ps) as [[a b]|] eqn:Ep; [|discriminate]. injection H as <-.
  cbn [fit_instruction copy_flags copy_sources copy_destination] in HP. destruct HP as (H1 & H2 & H3).
  pose proof (pop_same _ _ _ Ep H2 H3) as H4.
  rewrite span_move. eapply (for_each_bind g (fun '(fl, ps) => (map (reword_flag lo hi new) fl, map (reword_string lo hi new) ps))
      (fun '(fl, ps) => Forall fit_flag fl /\ Forall fit_string ps) (fun _ l => Forall neat l));
    [exact E|apply children_move|reflexivity|apply neat_children; exact Ht|split; assumption
    |cbn [bind]; rewrite map_length, El, pop_map, Ep; reflexivity|].
  clear - worded new_unquoted. intros [fl ps] t l st' Hf E. cbn beta iota in E |- *. rewrite rule_move.
  split; [eapply tail_neat; exact Hf|]. apply head_neat in Hf.
    destruct (t_rule t) eqn:Er; try discriminate; [injection E as <-; auto|..].
    + apply bind_ok in E. destruct E as (x & E & K). injection K as <-. intros [H1 H2]. apply Forall_app in H1. destruct H1 as [H1 H3].
      apply Forall_inv in H3. rename H3 into Hx. split; [split; assumption|]. rewrite (copy_flag_same t x Hf Er E Hx), map_app. reflexivity.
    + apply bind_ok in E. destruct E as (x & E & K). injection K as <-. intros [H1 H2]. apply Forall_app in H2. destruct H2 as [H2 H3].
      apply Forall_inv in H3. rename H3 into Hx. split; [split; assumption|]. rewrite (string_field t Hf x E Hx), map_app. reflexivity.
Qed.

Lemma env_pair_same t x : neat t -> t_rule t = R_env_pair -> env_pair_of unq src t = Ok x -> fit_var x ->
  env_pair_of unq src' (mt t) = Ok (reword_env lo hi new x).
Proof.
  intros Ht Er H HP. unfold env_pair_of in *. apply bind_ok in H. destruct H as ([n v] & E & H).
  apply bind_ok in H. destruct H as (n' & En & H). apply bind_ok in H. destruct H as (v' & Ev & H). injection H as <-.
  destruct n as [n|]; [|discriminate]. destruct v as [v|]; [|discriminate]. injection En as <-. injection Ev as <-.
  rewrite span_move. eapply (for_each_bind g (move2 (reword_string lo hi new) (reword_breakable lo hi new)) (same2 fit_string fit_value));
    [exact E|apply children_move|reflexivity|eapply start2; [exact Ht|rewrite Er; reflexivity]|exact HP|reflexivity|].
  clear - worded new_unquoted. intros [n v] t l st' Hf E. cbn beta iota in E |- *. cbn [move2]. rewrite rule_move.
  destruct (t_rule t) eqn:Er; try discriminate.
    + eapply fill1; [exact Hf|rewrite Er; reflexivity|apply string_field|exact E].
    + eapply (fill2 _ _ _ _ _ _ n v t l (Ok (breakable_of_field t (as_str src t))) (Ok (breakable_of_field (mt t) (as_str src' (mt t)))));
        [exact Hf|rewrite Er; reflexivity| |exact E].
      intros Hn x K _. injection K as <-. rewrite (neat_text t Hn), field_reword. reflexivity.
    + rewrite regroup in E |- *. eapply fill2; [exact Hf|rewrite Er; reflexivity|apply quoted_field; rewrite Er; cbn [In]; tauto|exact E].
Qed.

Notation move_env_instruction := (fun x => EnvInstruction (move_span g (env_span x)) (map (reword_env lo hi new) (env_vars x))).

Lemma env_pairs_same sp t x : neat t -> env_pairs_of unq src sp t = Ok x -> fit_instruction (IEnv x) ->
  env_pairs_of unq src' (move_span g sp) (mt t) = Ok (move_env_instruction x).
Proof.
  intros Ht. unfold env_pairs_of. intros H HP. apply bind_ok in H. destruct H as (l & E & H). injection H as <-.
  eapply (for_each_bind g (map (reword_env lo hi new)) (Forall fit_var) (fun _ l => Forall neat l));
    [exact E|apply children_move|reflexivity|apply neat_children; exact Ht|exact HP|reflexivity|].
  clear - worded new_unquoted. intros st t l st' Hf E. cbn beta iota in E |- *. rewrite rule_move.
  split; [eapply tail_neat; exact Hf|]. intros HP. apply head_neat in Hf.
  destruct (t_rule t) eqn:Er; try discriminate; [injection E as <-; auto|].
  eapply grow; [intros x; apply env_pair_same; [exact Hf|exact Er]|exact E|exact HP].
Qed.

Lemma env_single_same sp t x : neat t -> t_rule t = R_env_single -> env_single_of unq src sp t = Ok x -> fit_instruction (IEnv x) ->
  env_single_of unq src' (move_span g sp) (mt t) = Ok (move_env_instruction x).
Proof.
  intros Ht Er H HP. unfold env_single_of in *. apply bind_ok in H. destruct H as ([n v] & E & H).
  apply bind_ok in H. destruct H as (n' & En & H). apply bind_ok in H. destruct H as (v' & Ev & H). injection H as <-.
  destruct n as [n|]; [|discriminate]. destruct v as [v|]; [|discriminate]. injection En as <-. injection Ev as <-.
  cbn [fit_instruction env_vars] in HP. apply Forall_inv in HP.
  eapply (for_each_bind g (move2 (reword_string lo hi new) (reword_breakable lo hi new)) (same2 fit_string fit_value));
    [exact E|apply children_move|reflexivity|eapply start2; [exact Ht|rewrite Er; reflexivity]|exact HP|reflexivity|].
  clear - worded new_unquoted. intros [n v] t l st' Hf E. cbn beta iota in E |- *. cbn [move2]. rewrite rule_move.
  destruct (t_rule t) eqn:Er; try discriminate.
  - eapply fill_none; [exact Hf|exact E].
  - eapply fill1; [exact Hf|rewrite Er; reflexivity|apply string_field|exact E].
  - rewrite regroup in E |- *. eapply fill2; [exact Hf|rewrite Er; reflexivity|apply quoted_field; rewrite Er; cbn [In]; tauto|exact E].
  - eapply fill2; [exact Hf|rewrite Er; reflexivity|intros Hn x K _; apply (breakable_same t Hn x K)|exact E].
Qed.

Lemma env_same t x : neat t -> env_of unq src t = Ok x -> fit_instruction (IEnv x) -> env_of unq src' (mt t) = Ok (move_env_instruction x).
Proof.
  intros Ht. unfold env_of. rewrite children_move, span_move. apply neat_children in Ht. destruct (t_children t) as [|u l]; [discriminate|].
  cbn [map]. rewrite rule_move. apply head_neat in Ht.
  destruct (t_rule u) eqn:Er; try discriminate; [apply env_pairs_same; exact Ht|apply env_single_same; assumption].
Qed.

Lemma misc_same t x : neat t -> t_rule t = R_misc -> misc_of unq src t = Ok x -> fit_instruction (IMisc x) -> misc_of unq src' (mt t) =
  Ok (MiscInstruction (move_span g (misc_span x)) (reword_string lo hi new (misc_name x)) (reword_breakable lo hi new (misc_arguments x))).
Proof.
  intros Ht Er H HP. unfold misc_of in *. apply bind_ok in H. destruct H as ([n v] & E & H).
  apply bind_ok in H. destruct H as (n' & En & H). apply bind_ok in H. destruct H as (v' & Ev & H). injection H as <-.
  destruct n as [n|]; [|discriminate]. destruct v as [v|]; [|discriminate]. injection En as <-. injection Ev as <-.
  rewrite span_move. eapply (for_each_bind g (move2 (reword_string lo hi new) (reword_breakable lo hi new)) (same2 fit_string (@any breakable_string)));
    [exact E|apply children_move|reflexivity|eapply start2; [exact Ht|rewrite Er; reflexivity]|split; [exact HP|exact I]|reflexivity|].
  clear - worded new_unquoted. intros [n v] t l st' Hf E. cbn beta iota in E |- *. cbn [move2]. rewrite rule_move.
  destruct (t_rule t) eqn:Er; try discriminate.
  - eapply fill1; [exact Hf|rewrite Er; reflexivity|apply string_field|exact E].
  - eapply fill2; [exact Hf|rewrite Er; reflexivity|intros Hn x K _; apply (breakable_same t Hn x K)|exact E].
Qed.

Definition free3 (K1 K2 : class) (st : option tree * option tree * list flag) (l : list tree) : Prop :=
  let '(a, b, _) := st in slot K1 a l /\ slot K2 b l /\ Forall neat l.
Definition same3 (st : option tree * option tree * list flag) : Prop :=
  let '(a, b, fl) := st in Forall fit_flag fl.
Definition reword_fields (st : option tree * option tree * list flag) : option tree * option tree * list flag :=
  let '(a, b, fl) := st in (option_map mt a, option_map mt b, map re_flag fl).

Lemma for_each_state {S} (step : S -> tree -> outcome S) (I : S -> list tree -> Prop) :
  (forall st t l st', I st (t :: l) -> step st t = Ok st' -> I st' l) ->
  forall l st st', I st l -> for_each step l st = Ok st' -> I st' [].
Proof.
  intros Hs l. induction l as [|t l IH]; intros st st' Hi H; cbn [for_each] in H; [injection H as <-; exact Hi|].
  destruct (step st t) as [st1| | |] eqn:E; try discriminate. eapply IH; [|exact H]. eapply Hs; eassumption.
Qed.

Lemma from_same t n x : neat t -> t_rule t = R_from -> from_of unq src t n = Ok x -> fit_instruction (IFrom x) ->
  from_of unq src' (mt t) n = Ok (reword_from lo hi new x).
Proof.
  intros Ht Er H HP. unfold from_of in *. apply bind_ok in H. destruct H as ([[i a] fl] & E & H).
  assert (Hn : same_option neat i /\ same_option neat a).
  { pose proof (fun step => for_each_state step (fun (st : option tree * option tree * list flag) (l : list tree) =>
      let '(i, a, _) := st in same_option neat i /\ same_option neat a /\ Forall neat l)) as K.
    eapply K in E; [cbn beta iota in E; tauto| |split; [exact I|split; [exact I|apply neat_children; exact Ht]]].
    clear. intros [[i a] fl] t l st' (H1 & H2 & H3) E. cbn beta iota in E |- *. pose proof (head_neat _ _ H3) as Ht. apply tail_neat in H3.
    destruct (t_rule t); try discriminate; try (apply bind_ok in E; destruct E as (x & E & K); injection K as <-); try (injection E as <-); auto. }
  destruct Hn as [Hi Ha].
  apply bind_ok in H. destruct H as (im & Ei & H). apply bind_ok in H. destruct H as (u & Eh & H).
  apply bind_ok in H. destruct H as (al & Ea & H). injection H as <-.
  cbn [fit_instruction from_flags from_image from_alias] in HP. destruct HP as (H1 & H2 & H3).
  destruct i as [ti|]; [|discriminate]. cbn [same_option] in Hi.
  assert (Ki : parse_string unq src' (mt ti) = Ok (re_string im)).
  { apply string_field; [exact Hi|exact Ei|]. intros K. rewrite H2 in K. discriminate. }
  assert (Ka : match option_map mt a with Some f => x <- parse_string unq src' f;; Ok (Some x) | None => Ok None end = Ok (option_map re_string al)).
  { destruct a as [ta|]; [|injection Ea as <-; reflexivity]. apply bind_ok in Ea. destruct Ea as (xa & Ea & K). injection K as <-.
    cbn [same_option option_map] in *. rewrite (string_field ta Ha xa Ea H3). reflexivity. }
  rewrite span_move.
  eapply (for_each_bind g reword_fields same3 (free3 _ _)); [exact E|apply children_move|reflexivity| |exact H1| |].
  - pose proof (@start2 tree tree t _ _ Ht ltac:(rewrite Er; reflexivity)) as K. exact K.
  - cbn [reword_fields option_map]. rewrite Ki. cbn [bind]. assert (Ec : ss_content (re_string im) = ss_content im) by exact (not_around _ _ H2).
    rewrite Ec, Eh. cbn [bind]. rewrite Ka. reflexivity.
  - clear - worded new_unquoted. intros [[i a] fl] t l st' (H1 & H2 & H3) E. cbn beta iota in E |- *. pose proof (head_neat _ _ H3) as Ht. apply tail_neat in H3.
    cbn [reword_fields]. rewrite rule_move. destruct (t_rule t) eqn:Er; try discriminate.
    + injection E as <-. split; [|auto]. split; [eapply slot_pass; exact H1|]. split; [eapply slot_pass; exact H2|exact H3].
    + apply bind_ok in E. destruct E as (x & E & K). injection K as <-. split.
      { split; [eapply slot_pass; exact H1|]. split; [eapply slot_pass; exact H2|exact H3]. }
      intros P3. cbn [same3] in P3 |- *. apply Forall_app in P3. destruct P3 as [P3 P4]. apply Forall_inv in P4. split; [exact P3|].
      rewrite (from_flag_same t x Ht Er E P4). cbn [bind reword_fields]. rewrite map_app. reflexivity.
    + injection E as <-. destruct (slot_fill _ _ _ _ H1 ltac:(rewrite Er; reflexivity)) as [-> K].
      split; [split; [apply K|]; split; [eapply slot_pass; exact H2|exact H3]|]. intros P3. split; [exact P3|reflexivity].
    + injection E as <-. destruct (slot_fill _ _ _ _ H2 ltac:(rewrite Er; reflexivity)) as [-> K].
      split; [split; [eapply slot_pass; exact H1|]; split; [apply K|exact H3]|]. intros P3. split; [exact P3|reflexivity].
Qed.

Theorem instruction_same t i : neat t -> instruction_of unq src t = Ok i -> fit_instruction i ->
  instruction_of unq src' (mt t) = Ok (reword_instruction lo hi new i).
Proof.
  intros Ht H HP. unfold instruction_of in *. rewrite rule_move. destruct (t_rule t) eqn:Er; try discriminate;
    apply bind_ok in H; destruct H as (x & E & K); injection K as <-.
  - rewrite (from_same t 0 x Ht Er E HP). reflexivity.
  - rewrite (arg_same t x Ht Er E HP). reflexivity.
  - rewrite (label_instruction_same t x Ht E HP). reflexivity.
  - unfold run_of in *. apply bind_ok in E. destruct E as (e & E & K). injection K as <-. rewrite (command_same _ _ t e Ht E HP), span_move. reflexivity.
  - unfold entrypoint_of in *. apply bind_ok in E. destruct E as (e & E & K). injection K as <-. rewrite (command_same _ _ t e Ht E HP), span_move. reflexivity.
  - unfold cmd_of in *. apply bind_ok in E. destruct E as (e & E & K). injection K as <-. rewrite (command_same _ _ t e Ht E HP), span_move. reflexivity.
  - rewrite (copy_same t x Ht E HP). reflexivity.
  - rewrite (env_same t x Ht E HP). reflexivity.
  - rewrite (misc_same t x Ht Er E HP). reflexivity.
Qed.


End ConvertReword.
