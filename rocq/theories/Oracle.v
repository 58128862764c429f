(** Converting the same tokens with two functions that unescape: the results agree if the
    functions agree on the texts they are asked about. *)

From Coq Require Import String.
From Verif Require Import Bytes BytesFacts Grammar Peg PegFacts Result Ast Splicer Image Convert Dockerfile SpecImage SpecSyntax SpecParts
  PegRules PegQuoted Sound Once ConvertSame Spelt.
Local Open Scope nat_scope.

Section Oracle.
Variables u v : bytes -> option bytes.
Variable src : bytes.

Definition agree (w : bytes) : Prop := u w = v w.
Definition fine_string (x : spanned_string) : Prop :=
  starts_quoted (text_at src (ss_span x)) = true -> agree (text_at src (ss_span x)).
Definition fine_in_label (x : spanned_string) : Prop :=
  starts_quoted (text_at src (ss_span x)) = true -> agree (remove_breaks (text_at src (ss_span x))).
Definition fine_value (x : breakable_string) : Prop :=
  quoted_text (text_at src (br_span x)) -> agree (text_at src (br_span x)).
Definition fine_name (x : spanned_string) : Prop := True.
Definition fine_array (x : string_array) : Prop := Forall fine_string (sa_elements x).
Definition fine_command (x : shell_or_exec) : Prop := match x with Shell _ => True | Exec a => fine_array a end.
Definition fine_flag (x : flag) : Prop := fine_string (fl_value x).
Definition fine_label (x : label) : Prop := fine_in_label (lb_name x) /\ fine_in_label (lb_value x).
Definition fine_var (x : env_var) : Prop := fine_value (ev_value x).
Definition fine_instruction (i : instruction) : Prop :=
  match i with
  | IFrom x => Forall fine_flag (from_flags x)
  | IArg x => same_option fine_string (arg_value x)
  | ILabel x => Forall fine_label (label_labels x)
  | IRun x => fine_command (run_expr x)
  | IEntrypoint x => fine_command (entrypoint_expr x)
  | ICmd x => fine_command (cmd_expr x)
  | ICopy x => Forall fine_flag (copy_flags x) /\ Forall fine_string (copy_sources x) /\ fine_string (copy_destination x)
  | IEnv x => Forall fine_var (env_vars x)
  | IMisc x => True
  end.

Definition tidy (t : tree) : Prop := orderly t /\ spelt src t.
Lemma tidy_children t : tidy t -> Forall tidy (t_children t).
Proof.
  intros [H1 H2]. apply children_orderly in H1. apply spelt_inv in H2. destruct H2 as [_ H2].
  rewrite Forall_forall in *. intros x Hx. split; auto.
Qed.
Lemma tidy_spells t : tidy t -> spells (t_rule t) (as_str src t).
Proof. intros [_ H]. apply spelt_inv in H. apply H. Qed.
Lemma head_tidy t l : Forall tidy (t :: l) -> tidy t.
Proof. inversion 1. assumption. Qed.
Lemma tail_tidy t l : Forall tidy (t :: l) -> Forall tidy l.
Proof. inversion 1. assumption. Qed.

Lemma for_each_fine {S} (P : S -> Prop) (free : S -> list tree -> Prop) (step step' : S -> tree -> outcome S) :
  (forall st t l st', free st (t :: l) -> step st t = Ok st' -> free st' l /\ (P st' -> P st /\ step' st t = Ok st')) ->
  forall l st st', free st l -> for_each step l st = Ok st' -> P st' -> P st /\ for_each step' l st = Ok st'.
Proof.
  intros Hs l. induction l as [|t l IH]; intros st st' Hf H HP; cbn [for_each] in *; [injection H as <-; auto|].
  apply bind_ok in H. destruct H as (st1 & E & H). destruct (Hs st t l st1 Hf E) as [Hf1 K].
  destruct (IH st1 st' Hf1 H HP) as [P1 E1]. destruct (K P1) as [P0 E0]. split; [exact P0|]. rewrite E0. exact E1.
Qed.

Lemma for_each_fine_bind {S B} (P : S -> Prop) (free : S -> list tree -> Prop) (step step' : S -> tree -> outcome S) l st st' (k : S -> outcome B) b :
  for_each step l st = Ok st' -> free st l -> P st' -> k st' = Ok b ->
  (forall st t l st', free st (t :: l) -> step st t = Ok st' -> free st' l /\ (P st' -> P st /\ step' st t = Ok st')) ->
  bind (for_each step' l st) k = Ok b.
Proof. intros H Hf HP Hk Hs. destruct (for_each_fine P free step step' Hs l st st' Hf H HP) as [_ ->]. exact Hk. Qed.

(** ** Slots that are filled at most once *)

Definition open2 {A B} (K1 K2 : class) (st : option A * option B) (l : list tree) : Prop :=
  let '(a, b) := st in slot K1 a l /\ slot K2 b l /\ Forall tidy l.

Lemma begin2 {A B} t K1 K2 : tidy t -> fields_of (t_rule t) = [K1; K2] -> open2 K1 K2 (@None A, @None B) (t_children t).
Proof.
  intros H E. destruct (@start2 A B t K1 K2 (proj1 H) E) as (H1 & H2 & _). split; [exact H1|]. split; [exact H2|]. apply tidy_children. exact H.
Qed.

Lemma fine1 {A B} (P : A -> Prop) (Q : B -> Prop) K1 K2 a (b : option B) t l (o o' : outcome A) st' :
  open2 K1 K2 (a, b) (t :: l) -> K1 (t_rule t) = true -> (tidy t -> forall x, o = Ok x -> P x -> o' = Ok x) ->
  (x <- o;; Ok (Some x, b)) = Ok st' ->
  open2 K1 K2 st' l /\ (same2 P Q st' -> same2 P Q (a, b) /\ (x <- o';; Ok (Some x, b)) = Ok st').
Proof.
  intros (H1 & H2 & H3) HK Ho H. apply bind_ok in H. destruct H as (x & E & H). injection H as <-.
  destruct (slot_fill _ _ _ _ H1 HK) as [-> H1']. split.
  - split; [apply H1'|]. split; [eapply slot_pass; exact H2|]. inversion H3; assumption.
  - intros [K K']. split; [split; [exact I|exact K']|]. rewrite (Ho (head_tidy _ _ H3) x E K). reflexivity.
Qed.

Lemma fine2 {A B} (P : A -> Prop) (Q : B -> Prop) K1 K2 (a : option A) b t l (o o' : outcome B) st' :
  open2 K1 K2 (a, b) (t :: l) -> K2 (t_rule t) = true -> (tidy t -> forall x, o = Ok x -> Q x -> o' = Ok x) ->
  (x <- o;; Ok (a, Some x)) = Ok st' ->
  open2 K1 K2 st' l /\ (same2 P Q st' -> same2 P Q (a, b) /\ (x <- o';; Ok (a, Some x)) = Ok st').
Proof.
  intros (H1 & H2 & H3) HK Ho H. apply bind_ok in H. destruct H as (x & E & H). injection H as <-.
  destruct (slot_fill _ _ _ _ H2 HK) as [-> H2']. split.
  - split; [eapply slot_pass; exact H1|]. split; [apply H2'|]. inversion H3; assumption.
  - intros [K K']. split; [split; [exact K|exact I]|]. rewrite (Ho (head_tidy _ _ H3) x E K'). reflexivity.
Qed.

Lemma fine_none {A B} (P : A -> Prop) (Q : B -> Prop) K1 K2 (a : option A) (b : option B) t l st' :
  open2 K1 K2 (a, b) (t :: l) -> Ok (a, b) = Ok st' ->
  open2 K1 K2 st' l /\ (same2 P Q st' -> same2 P Q (a, b) /\ Ok (a, b) = Ok st').
Proof.
  intros (H1 & H2 & H3) H. injection H as <-. split; [|auto].
  split; [eapply slot_pass; exact H1|]. split; [eapply slot_pass; exact H2|]. inversion H3; assumption.
Qed.

Lemma more {A} (P : A -> Prop) (acc : list A) (o o' : outcome A) st' :
  (forall x, o = Ok x -> P x -> o' = Ok x) -> (x <- o;; Ok (acc ++ [x])) = Ok st' -> Forall P st' ->
  Forall P acc /\ (x <- o';; Ok (acc ++ [x])) = Ok st'.
Proof.
  intros Ho H HP. apply bind_ok in H. destruct H as (x & E & H). injection H as <-. apply Forall_app in HP.
  destruct HP as [H1 H2]. apply Forall_inv in H2. split; [exact H1|]. rewrite (Ho x E H2). reflexivity.
Qed.

(** ** Strings *)

Lemma string_fine t x : parse_string v src t = Ok x -> fine_string x -> parse_string u src t = Ok x.
Proof.
  intros H K. assert (E : ss_span x = span_of t).
  { unfold parse_string in H. apply bind_ok in H. destruct H as (c & _ & H). injection H as <-. reflexivity. }
  unfold fine_string in K. rewrite E, <- as_str_text in K. rewrite <- H. unfold parse_string, unquote.
  destruct (starts_quoted (as_str src t)); [|reflexivity]. rewrite (K eq_refl). reflexivity.
Qed.

Lemma name_fine t : tidy t -> In (t_rule t) [R_from_flag_name; R_copy_flag_name; R_from_image; R_from_alias; R_arg_name; R_env_name; R_misc_instruction] ->
  parse_string u src t = parse_string v src t.
Proof.
  intros H E. apply tidy_spells in H. unfold parse_string.
  assert (K : starts_quoted (as_str src t) = false); [|rewrite K; reflexivity].
  cbn [In] in E. repeat (destruct E as [E|E]; [rewrite <- E in H; exact H|]). contradiction.
Qed.

Lemma name_field t x : In (t_rule t) [R_from_flag_name; R_copy_flag_name; R_from_image; R_from_alias; R_arg_name; R_env_name; R_misc_instruction] ->
  tidy t -> parse_string v src t = Ok x -> fine_name x -> parse_string u src t = Ok x.
Proof. intros E Ht H _. rewrite name_fine; assumption. Qed.

Lemma value_field t x : tidy t -> parse_string v src t = Ok x -> fine_string x -> parse_string u src t = Ok x.
Proof. intros _. apply string_fine. Qed.

Lemma no_breaks_same w : ~ In LF w -> remove_breaks w = w.
Proof.
  induction w as [|c w IH]; intros H; [reflexivity|]. cbn [remove_breaks].
  destruct w as [|d w]; [reflexivity|].
  assert (d =? LF = false)%N as -> by (apply N.eqb_neq; intros ->; apply H; right; left; reflexivity).
  rewrite andb_false_r, IH; [reflexivity|]. intros K. apply H. right. exact K.
Qed.

Lemma label_field t x : t_rule t = R_label_name \/ t_rule t = R_label_single_name \/ t_rule t = R_label_value ->
  tidy t -> parse_string v src t = Ok x -> fine_in_label x -> parse_string u src t = Ok x.
Proof.
  intros Er Ht H K. apply string_fine; [exact H|]. unfold fine_string, fine_in_label in *. intros Q.
  assert (E : ss_span x = span_of t).
  { unfold parse_string in H. apply bind_ok in H. destruct H as (c & _ & H). injection H as <-. reflexivity. }
  apply K in Q. rewrite E, <- as_str_text in *. rewrite no_breaks_same in Q; [exact Q|].
  apply tidy_spells in Ht. destruct Er as [Er|[Er|Er]]; rewrite Er in Ht; exact Ht.
Qed.

Lemma clean_field t x : t_rule t = R_label_quoted_name \/ t_rule t = R_label_single_quoted_name \/ t_rule t = R_label_quoted_value ->
  tidy t -> unquote_clean v src t = Ok x -> fine_in_label x -> unquote_clean u src t = Ok x.
Proof.
  intros Er Ht H K. apply tidy_spells in Ht.
  assert (Q : quoted_text (as_str src t)) by (destruct Er as [Er|[Er|Er]]; rewrite Er in Ht; exact Ht). clear Er Ht.
  assert (E : ss_span x = span_of t).
  { unfold unquote_clean in H. apply bind_ok in H. destruct H as (c & _ & H). injection H as <-. reflexivity. }
  unfold fine_in_label in K. rewrite E, <- as_str_text in K. rewrite <- H. unfold unquote_clean, unquote, clean_escaped_breaks.
  rewrite K; [reflexivity|]. destruct Q as (c & b & Hc & -> & _). destruct Hc as [->| ->]; reflexivity.
Qed.

(** ** The converters *)

Lemma array_fine t x : parse_string_array v src t = Ok x -> fine_array x -> parse_string_array u src t = Ok x.
Proof.
  unfold parse_string_array. intros H HP. apply bind_ok in H. destruct H as (l & E & H). injection H as <-.
  unfold fine_array in HP. cbn [sa_elements] in HP.
  eapply (for_each_fine_bind (Forall fine_string) (fun _ _ => True)); [exact E|exact I|exact HP|reflexivity|].
  clear. intros st t l st' _ E. cbn beta iota in E |- *.
  split; [exact I|]. intros HP. destruct (t_rule t); try discriminate; [injection E as <-; auto|].
  eapply more; [apply string_fine|exact E|exact HP].
Qed.

Lemma from_flag_fine t x : tidy t -> t_rule t = R_from_flag -> from_flag_of v src t = Ok x -> fine_flag x -> from_flag_of u src t = Ok x.
Proof.
  intros Ht Er H HP. unfold from_flag_of in *. apply bind_ok in H. destruct H as ([n w] & E & H).
  pose proof H as H0.
  apply bind_ok in H. destruct H as (n' & En & H). apply bind_ok in H. destruct H as (w' & Ew & H). injection H as <-.
  destruct n as [n|]; [|discriminate]. destruct w as [w|]; [|discriminate]. injection En as <-. injection Ew as <-.
  eapply (for_each_fine_bind (same2 fine_name fine_string));
    [exact E|eapply begin2; [exact Ht|rewrite Er; reflexivity]|split; [exact I|exact HP]|exact H0|].
  clear. intros [n w] t l st' Hf E. cbn beta iota in E |- *. destruct (t_rule t) eqn:Er; try discriminate.
    + eapply fine1; [exact Hf|rewrite Er; reflexivity|intros Ht x; apply name_field; [rewrite Er; cbn; tauto|exact Ht]|exact E].
    + eapply fine2; [exact Hf|rewrite Er; reflexivity|intros Ht x; apply value_field; exact Ht|exact E].
Qed.

Lemma copy_flag_fine t x : tidy t -> t_rule t = R_copy_flag -> copy_flag_of v src t = Ok x -> fine_flag x -> copy_flag_of u src t = Ok x.
Proof.
  intros Ht Er H HP. unfold copy_flag_of in *. apply bind_ok in H. destruct H as ([n w] & E & H).
  pose proof H as H0.
  apply bind_ok in H. destruct H as (n' & En & H). apply bind_ok in H. destruct H as (w' & Ew & H). injection H as <-.
  destruct n as [n|]; [|discriminate]. destruct w as [w|]; [|discriminate]. injection En as <-. injection Ew as <-.
  eapply (for_each_fine_bind (same2 fine_name fine_string));
    [exact E|eapply begin2; [exact Ht|rewrite Er; reflexivity]|split; [exact I|exact HP]|exact H0|].
  clear. intros [n w] t l st' Hf E. cbn beta iota in E |- *. destruct (t_rule t) eqn:Er; try discriminate.
    + eapply fine1; [exact Hf|rewrite Er; reflexivity|intros Ht x; apply name_field; [rewrite Er; cbn; tauto|exact Ht]|exact E].
    + eapply fine2; [exact Hf|rewrite Er; reflexivity|intros Ht x; apply value_field; exact Ht|exact E].
Qed.

Lemma arg_fine t x : tidy t -> t_rule t = R_arg -> arg_of v src t = Ok x -> fine_instruction (IArg x) -> arg_of u src t = Ok x.
Proof.
  intros Ht Er H HP. unfold arg_of in *. apply bind_ok in H. destruct H as ([n w] & E & H). pose proof H as H0.
  apply bind_ok in H. destruct H as (n' & En & H). injection H as <-.
  destruct n as [n|]; [|discriminate]. injection En as <-.
  eapply (for_each_fine_bind (same2 fine_name fine_string));
    [exact E|eapply begin2; [exact Ht|rewrite Er; reflexivity]|split; [exact I|exact HP]|exact H0|].
  clear. intros [n w] t l st' Hf E. cbn beta iota in E |- *. destruct (t_rule t) eqn:Er; try discriminate.
    + eapply fine_none; [exact Hf|exact E].
    + eapply fine1; [exact Hf|rewrite Er; reflexivity|intros Ht x; apply name_field; [rewrite Er; cbn; tauto|exact Ht]|exact E].
    + eapply fine2; [exact Hf|rewrite Er; reflexivity|intros Ht x; apply value_field; exact Ht|exact E].
    + eapply fine2; [exact Hf|rewrite Er; reflexivity|intros Ht x; apply value_field; exact Ht|exact E].
Qed.

Lemma label_fine t x : tidy t -> t_rule t = R_label_pair \/ t_rule t = R_label_single ->
  label_of v src t = Ok x -> fine_label x -> label_of u src t = Ok x.
Proof.
  intros Ht Er H HP. unfold label_of in *. apply bind_ok in H. destruct H as ([n w] & E & H). pose proof H as H0.
  apply bind_ok in H. destruct H as (n' & En & H). apply bind_ok in H. destruct H as (w' & Ew & H). injection H as <-.
  destruct n as [n|]; [|discriminate]. destruct w as [w|]; [|discriminate]. injection En as <-. injection Ew as <-.
  eapply (for_each_fine_bind (same2 fine_in_label fine_in_label));
    [exact E|eapply begin2; [exact Ht|destruct Er as [Er|Er]; rewrite Er; reflexivity]|exact HP|exact H0|].
  clear. intros [n w] t l st' Hf E. cbn beta iota in E |- *. destruct (t_rule t) eqn:Er; try discriminate;
    try (eapply fine_none; [exact Hf|exact E]);
    first [eapply fine1; [exact Hf|rewrite Er; reflexivity|intros Ht x; apply label_field; [tauto|exact Ht]|exact E]
          |eapply fine1; [exact Hf|rewrite Er; reflexivity|intros Ht x; apply clean_field; [tauto|exact Ht]|exact E]
          |eapply fine2; [exact Hf|rewrite Er; reflexivity|intros Ht x; apply label_field; [tauto|exact Ht]|exact E]
          |eapply fine2; [exact Hf|rewrite Er; reflexivity|intros Ht x; apply clean_field; [tauto|exact Ht]|exact E]].
Qed.

Lemma label_instruction_fine t x : tidy t -> label_instruction_of v src t = Ok x -> fine_instruction (ILabel x) ->
  label_instruction_of u src t = Ok x.
Proof.
  intros Ht. unfold label_instruction_of. intros H HP. apply bind_ok in H. destruct H as (l & E & H). injection H as <-.
  eapply (for_each_fine_bind (Forall fine_label) (fun _ l => Forall tidy l));
    [exact E|apply tidy_children; exact Ht|exact HP|reflexivity|].
  clear. intros st t l st' Hf E. cbn beta iota in E |- *.
  split; [eapply tail_tidy; exact Hf|]. intros HP. apply head_tidy in Hf.
    destruct (t_rule t) eqn:Er; try discriminate; try (injection E as <-; auto; fail);
      (eapply more; [intros x; apply label_fine; [exact Hf|tauto]|exact E|exact HP]).
Qed.

Lemma command_fine r1 r2 t x : shell_or_exec_of v src r1 r2 t = Ok x -> fine_command x -> shell_or_exec_of u src r1 r2 t = Ok x.
Proof.
  unfold shell_or_exec_of. destruct (t_children t) as [|y l]; [discriminate|].
  destruct (rule_eq_dec (t_rule y) r1).
  - intros H HP. apply bind_ok in H. destruct H as (a & E & H). injection H as <-. rewrite (array_fine y a E HP). reflexivity.
  - intros H _. exact H.
Qed.

Lemma pop_fine (P : spanned_string -> Prop) (l a : list spanned_string) b : pop l = Some (a, b) -> Forall P a -> P b -> Forall P l.
Proof.
  revert a b. induction l as [|x l IH]; intros a b H Ha Hb; [discriminate|]. cbn [pop] in H.
  destruct (pop l) as [[a' b']|] eqn:E.
  - injection H as <- <-. inversion Ha; subst. constructor; [assumption|]. eapply IH; [reflexivity|eassumption|exact Hb].
  - injection H as <- <-. destruct l as [|y l]; [constructor; [exact Hb|constructor]|].
    cbn [pop] in E. destruct (pop l) as [[]|]; discriminate.
Qed.

Lemma copy_fine t x : tidy t -> copy_of v src t = Ok x -> fine_instruction (ICopy x) -> copy_of u src t = Ok x.
Proof.
  intros Ht H HP. unfold copy_of in *. apply bind_ok in H. destruct H as ([fl ps] & E & H). pose proof H as H0.
  destruct (length ps <? 2) eqn:El; [discriminate|]. destruct (pop ps) as [[a b]|] eqn:Ep; [|discriminate]. injection H as <-.
  cbn [fine_instruction copy_flags copy_sources copy_destination] in HP. destruct HP as (H1 & H2 & H3).
  pose proof (pop_fine _ _ _ _ Ep H2 H3) as H4.
  eapply (for_each_fine_bind (fun '(fl, ps) => Forall fine_flag fl /\ Forall fine_string ps) (fun _ l => Forall tidy l));
    [exact E|apply tidy_children; exact Ht|split; assumption|cbn beta iota; rewrite El, Ep; reflexivity|].
  clear. intros [fl ps] t l st' Hf E. cbn beta iota in E |- *.
  split; [eapply tail_tidy; exact Hf|]. apply head_tidy in Hf.
    destruct (t_rule t) eqn:Er; try discriminate; [injection E as <-; auto|..].
    + apply bind_ok in E. destruct E as (x & E & K). injection K as <-. intros [H1 H2]. apply Forall_app in H1. destruct H1 as [H1 H3].
      apply Forall_inv in H3. split; [split; assumption|]. rewrite (copy_flag_fine t x Hf Er E H3). reflexivity.
    + apply bind_ok in E. destruct E as (x & E & K). injection K as <-. intros [H1 H2]. apply Forall_app in H2. destruct H2 as [H2 H3].
      apply Forall_inv in H3. split; [split; assumption|]. rewrite (string_fine t x E H3). reflexivity.
Qed.

Lemma quoted_field_fine t x : t_rule t = R_env_pair_quoted_value \/ t_rule t = R_env_single_quoted_value -> tidy t ->
  (w <- unquote v (as_str src t);; Ok (breakable_of_field t w)) = Ok x -> fine_value x ->
  (w <- unquote u (as_str src t);; Ok (breakable_of_field t w)) = Ok x.
Proof.
  intros Er Ht K HP. pose proof K as K0. apply bind_ok in K. destruct K as (c & K & Kc). injection Kc as <-.
  unfold fine_value in HP. change (br_span (breakable_of_field t c)) with (span_of t) in HP. rewrite <- as_str_text in HP.
  rewrite <- K0. unfold unquote. rewrite HP; [reflexivity|]. apply tidy_spells in Ht. destruct Er as [Er|Er]; rewrite Er in Ht; exact Ht.
Qed.

Lemma env_pair_fine t x : tidy t -> t_rule t = R_env_pair -> env_pair_of v src t = Ok x -> fine_var x -> env_pair_of u src t = Ok x.
Proof.
  intros Ht Er H HP. unfold env_pair_of in *. apply bind_ok in H. destruct H as ([n w] & E & H). pose proof H as H0.
  apply bind_ok in H. destruct H as (n' & En & H). apply bind_ok in H. destruct H as (w' & Ew & H). injection H as <-.
  destruct n as [n|]; [|discriminate]. destruct w as [w|]; [|discriminate]. injection En as <-. injection Ew as <-.
  eapply (for_each_fine_bind (same2 fine_name fine_value));
    [exact E|eapply begin2; [exact Ht|rewrite Er; reflexivity]|split; [exact I|exact HP]|exact H0|].
  clear. intros [n w] t l st' Hf E. cbn beta iota in E |- *. destruct (t_rule t) eqn:Er; try discriminate.
    + eapply fine1; [exact Hf|rewrite Er; reflexivity|intros Ht x; apply name_field; [rewrite Er; cbn; tauto|exact Ht]|exact E].
    + eapply (fine2 _ _ _ _ n w t l (Ok (breakable_of_field t (as_str src t))) (Ok (breakable_of_field t (as_str src t))));
        [exact Hf|rewrite Er; reflexivity|auto|exact E].
    + rewrite regroup in E |- *. eapply fine2; [exact Hf|rewrite Er; reflexivity|intros Ht x; apply quoted_field_fine; [tauto|exact Ht]|exact E].
Qed.

Lemma env_pairs_fine sp t x : tidy t -> env_pairs_of v src sp t = Ok x -> fine_instruction (IEnv x) -> env_pairs_of u src sp t = Ok x.
Proof.
  intros Ht. unfold env_pairs_of. intros H HP. apply bind_ok in H. destruct H as (l & E & H). injection H as <-.
  eapply (for_each_fine_bind (Forall fine_var) (fun _ l => Forall tidy l));
    [exact E|apply tidy_children; exact Ht|exact HP|reflexivity|].
  clear. intros st t l st' Hf E. cbn beta iota in E |- *.
  split; [eapply tail_tidy; exact Hf|]. intros HP. apply head_tidy in Hf.
  destruct (t_rule t) eqn:Er; try discriminate; [injection E as <-; auto|].
  eapply more; [intros x; apply env_pair_fine; [exact Hf|exact Er]|exact E|exact HP].
Qed.

Lemma env_single_fine sp t x : tidy t -> t_rule t = R_env_single -> env_single_of v src sp t = Ok x -> fine_instruction (IEnv x) ->
  env_single_of u src sp t = Ok x.
Proof.
  intros Ht Er H HP. unfold env_single_of in *. apply bind_ok in H. destruct H as ([n w] & E & H). pose proof H as H0.
  apply bind_ok in H. destruct H as (n' & En & H). apply bind_ok in H. destruct H as (w' & Ew & H). injection H as <-.
  destruct n as [n|]; [|discriminate]. destruct w as [w|]; [|discriminate]. injection En as <-. injection Ew as <-.
  cbn [fine_instruction env_vars] in HP. apply Forall_inv in HP. unfold fine_var in HP. cbn [ev_value] in HP.
  eapply (for_each_fine_bind (same2 fine_name fine_value));
    [exact E|eapply begin2; [exact Ht|rewrite Er; reflexivity]|split; [exact I|exact HP]|exact H0|].
  clear. intros [n w] t l st' Hf E. cbn beta iota in E |- *. destruct (t_rule t) eqn:Er; try discriminate.
  - eapply fine_none; [exact Hf|exact E].
  - eapply fine1; [exact Hf|rewrite Er; reflexivity|intros Ht x; apply name_field; [rewrite Er; cbn; tauto|exact Ht]|exact E].
  - rewrite regroup in E |- *. eapply fine2; [exact Hf|rewrite Er; reflexivity|intros Ht x; apply quoted_field_fine; [tauto|exact Ht]|exact E].
  - eapply fine2; [exact Hf|rewrite Er; reflexivity|intros _ x Hx _; exact Hx|exact E].
Qed.

Lemma env_fine t x : tidy t -> env_of v src t = Ok x -> fine_instruction (IEnv x) -> env_of u src t = Ok x.
Proof.
  intros Ht. unfold env_of. apply tidy_children in Ht. destruct (t_children t) as [|y l]; [discriminate|]. apply head_tidy in Ht.
  destruct (t_rule y) eqn:Er; try discriminate; [apply env_pairs_fine; exact Ht|apply env_single_fine; assumption].
Qed.

Lemma misc_fine t x : tidy t -> t_rule t = R_misc -> misc_of v src t = Ok x -> misc_of u src t = Ok x.
Proof.
  intros Ht Er H. unfold misc_of in *. apply bind_ok in H. destruct H as ([n w] & E & H). pose proof H as H0.
  apply bind_ok in H. destruct H as (n' & En & H). apply bind_ok in H. destruct H as (w' & Ew & H). injection H as <-.
  destruct n as [n|]; [|discriminate]. destruct w as [w|]; [|discriminate]. injection En as <-. injection Ew as <-.
  eapply (for_each_fine_bind (same2 fine_name (fun _ => True)));
    [exact E|eapply begin2; [exact Ht|rewrite Er; reflexivity]|split; exact I|exact H0|].
  clear. intros [n w] t l st' Hf E. cbn beta iota in E |- *. destruct (t_rule t) eqn:Er; try discriminate.
  - eapply fine1; [exact Hf|rewrite Er; reflexivity|intros Ht x; apply name_field; [rewrite Er; cbn; tauto|exact Ht]|exact E].
  - eapply fine2; [exact Hf|rewrite Er; reflexivity|intros _ x Hx _; exact Hx|exact E].
Qed.

Definition open3 (st : option tree * option tree * list flag) (l : list tree) : Prop :=
  let '(a, b, _) := st in
  match a with Some t => tidy t /\ t_rule t = R_from_image | None => True end /\
  match b with Some t => tidy t /\ t_rule t = R_from_alias | None => True end /\ Forall tidy l.

Lemma from_fine t n x : tidy t -> t_rule t = R_from -> from_of v src t n = Ok x -> fine_instruction (IFrom x) -> from_of u src t n = Ok x.
Proof.
  intros Ht Er H HP. unfold from_of in *. apply bind_ok in H. destruct H as ([[i a] fl] & E & H).
  pose proof (for_each_fine (fun '(_, _, fl) => Forall fine_flag fl) open3) as K.
  assert (Kf : Forall fine_flag fl).
  { apply bind_ok in H. destruct H as (im & _ & H). apply bind_ok in H. destruct H as (? & _ & H).
    apply bind_ok in H. destruct H as (? & _ & H). injection H as <-. exact HP. }
  assert (Free : open3 (i, a, fl) [] /\ for_each (fun '(image_field, alias_field, flags) field =>
    match t_rule field with
    | R_from_flag => x <- from_flag_of u src field;; Ok (image_field, alias_field, flags ++ [x])
    | R_from_image => Ok (Some field, alias_field, flags)
    | R_from_alias => Ok (image_field, Some field, flags)
    | R_comment => Ok (image_field, alias_field, flags)
    | r => unexpected_token r
    end) (t_children t) (None, None, []) = Ok (i, a, fl)).
  { apply tidy_children in Ht. clear -E Kf Ht. revert E.
    assert (O : open3 (None, None, []) (t_children t)) by (split; [exact I|split; [exact I|exact Ht]]). clear Ht. revert O Kf.
    generalize (@None tree, @None tree, @nil flag). generalize (t_children t).
    assert (Step : forall l st, open3 st l -> Forall fine_flag fl -> for_each (fun '(image_field, alias_field, flags) field =>
      match t_rule field with
      | R_from_flag => x <- from_flag_of v src field;; Ok (image_field, alias_field, flags ++ [x])
      | R_from_image => Ok (Some field, alias_field, flags)
      | R_from_alias => Ok (image_field, Some field, flags)
      | R_comment => Ok (image_field, alias_field, flags)
      | r => unexpected_token r
      end) l st = Ok (i, a, fl) -> Forall fine_flag (snd st) /\ open3 (i, a, fl) [] /\ for_each (fun '(image_field, alias_field, flags) field =>
      match t_rule field with
      | R_from_flag => x <- from_flag_of u src field;; Ok (image_field, alias_field, flags ++ [x])
      | R_from_image => Ok (Some field, alias_field, flags)
      | R_from_alias => Ok (image_field, Some field, flags)
      | R_comment => Ok (image_field, alias_field, flags)
      | r => unexpected_token r
      end) l st = Ok (i, a, fl)); [|intros; eapply Step; eassumption].
    induction l as [|t0 l IH]; intros [[i0 a0] fl0] (H1 & H2 & H3) Kf E; cbn [for_each] in *.
    { injection E as -> -> ->. repeat split; try assumption. }
    pose proof (head_tidy _ _ H3) as Ht. apply tail_tidy in H3.
    destruct (t_rule t0) eqn:Er; try discriminate E; cbn [bind] in *.
    - apply IH in E; [exact E|repeat split; assumption|exact Kf].
    - destruct (from_flag_of v src t0) as [y| | |] eqn:Ey; try discriminate E. cbn [bind] in E.
      apply IH in E; [|repeat split; assumption|exact Kf]. destruct E as (F & O & E). cbn [snd] in *. apply Forall_app in F.
      destruct F as [F1 F2]. apply Forall_inv in F2. split; [exact F1|]. split; [exact O|].
      rewrite (from_flag_fine t0 y Ht Er Ey F2). exact E.
    - apply IH in E; [exact E| |exact Kf]. split; [split; [exact Ht|exact Er]|split; assumption].
    - apply IH in E; [exact E| |exact Kf]. split; [exact H1|split; [split; [exact Ht|exact Er]|assumption]]. }
  clear K. destruct Free as [(O1 & O2 & _) ->]. cbn [bind]. rewrite <- H.
  destruct i as [ti|]; [|reflexivity]. rewrite (name_fine ti (proj1 O1)) by (rewrite (proj2 O1); cbn; tauto).
  destruct a as [ta|]; [|reflexivity]. rewrite (name_fine ta (proj1 O2)) by (rewrite (proj2 O2); cbn; tauto). reflexivity.
Qed.

Theorem instruction_fine t i : tidy t -> instruction_of v src t = Ok i -> fine_instruction i -> instruction_of u src t = Ok i.
Proof.
  intros Ht H HP. unfold instruction_of in *. destruct (t_rule t) eqn:Er; try discriminate;
    apply bind_ok in H; destruct H as (x & E & K); injection K as <-.
  - rewrite (from_fine t 0 x Ht Er E HP). reflexivity.
  - rewrite (arg_fine t x Ht Er E HP). reflexivity.
  - rewrite (label_instruction_fine t x Ht E HP). reflexivity.
  - unfold run_of in *. apply bind_ok in E. destruct E as (e & E & K). injection K as <-. rewrite (command_fine _ _ t e E HP). reflexivity.
  - unfold entrypoint_of in *. apply bind_ok in E. destruct E as (e & E & K). injection K as <-. rewrite (command_fine _ _ t e E HP). reflexivity.
  - unfold cmd_of in *. apply bind_ok in E. destruct E as (e & E & K). injection K as <-. rewrite (command_fine _ _ t e E HP). reflexivity.
  - rewrite (copy_fine t x Ht E HP). reflexivity.
  - rewrite (env_fine t x Ht E HP). reflexivity.
  - rewrite (misc_fine t x Ht Er E). reflexivity.
Qed.

Lemma doc_step_fine st t st' : tidy t -> doc_step v src st t = Ok st' -> Forall fine_instruction (ds_instructions st') ->
  Forall fine_instruction (ds_instructions st) /\ doc_step u src st t = Ok st'.
Proof.
  intros Ht H HP. unfold doc_step in *.
  assert (K : forall (k : instruction -> outcome doc_state), (i <- instruction_of v src t;; k i) = Ok st' ->
    (forall i, k i = Ok st' -> Forall fine_instruction (ds_instructions st) /\ fine_instruction i) ->
    Forall fine_instruction (ds_instructions st) /\ (i <- instruction_of u src t;; k i) = Ok st').
  { intros k Hk Hi. apply bind_ok in Hk. destruct Hk as (i & E & Hk). destruct (Hi i Hk) as [H1 H2]. split; [exact H1|].
    rewrite (instruction_fine t i Ht E H2). exact Hk. }
  destruct (t_rule t); try (injection H as <-; auto; fail); refine (K _ H _);
    (clear H; intros i H; destruct i; injection H as <-; cbn [ds_instructions] in HP; apply Forall_app in HP;
     destruct HP as [H1 H2]; apply Forall_inv in H2; (split; [exact H1|exact H2])).
Qed.

Theorem parse_fine d : valid_utf8 src = true -> parse v src = Ok d -> Forall fine_instruction (d_instructions d) -> parse u src = Ok d.
Proof.
  intros V H HP. unfold parse in *. rewrite pest_parse_run in *.
  destruct (run ctx0 (Call R_dockerfile) 0 src) as [q s f| |] eqn:R; try discriminate. destruct f as [|t f]; [discriminate|].
  pose proof (run_spelt src _ (Call R_dockerfile) 0 src _ _ _ eq_refl V eq_refl R) as Sp. apply run_orderly in R.
  assert (Ht : tidy t) by (split; [inversion R|inversion Sp]; assumption).
  apply bind_ok in H. destruct H as (st & E & H). injection H as <-. cbn [d_instructions] in HP.
  eapply (for_each_fine_bind (fun st => Forall fine_instruction (ds_instructions st)) (fun _ l => Forall tidy l));
    [exact E|apply tidy_children; exact Ht|exact HP|reflexivity|].
  clear. intros st t l st' Hf E. split; [eapply tail_tidy; exact Hf|]. intros HP.
  apply (doc_step_fine st t st'); [eapply head_tidy; exact Hf|exact E|exact HP].
Qed.

End Oracle.
