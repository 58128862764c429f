(** Converting tokens over two texts that agree where the instruction carries text;
    the offsets of the second tokens are those of the first, moved. *)

From Coq Require Import String.
From Verif Require Import Bytes BytesFacts Grammar Peg Result Ast Splicer Image Convert Dockerfile SpecParts SpecMove Shift ConvertMove Once.
Local Open Scope nat_scope.

Section ConvertSame.
Variable unq : bytes -> option bytes.
Variables src src' : bytes.
Variable g : nat -> nat.
Notation mt := (move_tree g).

Definition same (sp : span) : Prop := text_at src' (move_span g sp) = text_at src sp.
Definition same_string (x : spanned_string) : Prop := same (ss_span x).
Definition same_component (x : breakable_component) : Prop :=
  match x with BString s => same (ss_span s) | BComment s => same (sc_span s) end.
Definition same_breakable (x : breakable_string) : Prop := Forall same_component (br_components x).
Definition same_array (x : string_array) : Prop := Forall same_string (sa_elements x).
Definition same_command (x : shell_or_exec) : Prop := match x with Shell s => same_breakable s | Exec a => same_array a end.
Definition same_flag (x : flag) : Prop := same_string (fl_name x) /\ same_string (fl_value x).
Definition same_label (x : label) : Prop := same_string (lb_name x) /\ same_string (lb_value x).
Definition same_var (x : env_var) : Prop := same_string (ev_key x) /\ same_breakable (ev_value x).
Definition same_option {A} (P : A -> Prop) (x : option A) : Prop := match x with Some a => P a | None => True end.
Definition same_instruction (i : instruction) : Prop :=
  match i with
  | IFrom x => Forall same_flag (from_flags x) /\ same_string (from_image x) /\ same_option same_string (from_alias x)
  | IArg x => same_string (arg_name x) /\ same_option same_string (arg_value x)
  | ILabel x => Forall same_label (label_labels x)
  | IRun x => same_command (run_expr x)
  | IEntrypoint x => same_command (entrypoint_expr x)
  | ICmd x => same_command (cmd_expr x)
  | ICopy x => Forall same_flag (copy_flags x) /\ Forall same_string (copy_sources x) /\ same_string (copy_destination x)
  | IEnv x => Forall same_var (env_vars x)
  | IMisc x => same_string (misc_name x) /\ same_breakable (misc_arguments x)
  end.

Lemma as_str_text s t : as_str s t = text_at s (span_of t).
Proof. destruct t. reflexivity. Qed.

Lemma bind_ok {A B} (o : outcome A) (k : A -> outcome B) b : bind o k = Ok b -> exists a, o = Ok a /\ k a = Ok b.
Proof. destruct o as [a|e| |]; cbn [bind]; try discriminate. eauto. Qed.

Lemma for_each_same {S} (mv : S -> S) (P : S -> Prop) (free : S -> list tree -> Prop) (step step' : S -> tree -> outcome S) :
  (forall st t l st', free st (t :: l) -> step st t = Ok st' -> free st' l /\ (P st' -> P st /\ step' (mv st) (mt t) = Ok (mv st'))) ->
  forall l st st', free st l -> for_each step l st = Ok st' -> P st' -> P st /\ for_each step' (map mt l) (mv st) = Ok (mv st').
Proof.
  intros Hs l. induction l as [|t l IH]; intros st st' Hf H HP; cbn [map for_each] in *; [injection H as <-; auto|].
  apply bind_ok in H. destruct H as (st1 & E & H). destruct (Hs st t l st1 Hf E) as [Hf1 K].
  destruct (IH st1 st' Hf1 H HP) as [P1 E1]. destruct (K P1) as [P0 E0]. split; [exact P0|]. rewrite E0. exact E1.
Qed.

Lemma for_each_bind {S B} (mv : S -> S) (P : S -> Prop) (free : S -> list tree -> Prop) (step step' : S -> tree -> outcome S) l l' st st0 st' (k : S -> outcome B) b :
  for_each step l st = Ok st' -> l' = map mt l -> st0 = mv st -> free st l -> P st' -> k (mv st') = Ok b ->
  (forall st t l st', free st (t :: l) -> step st t = Ok st' -> free st' l /\ (P st' -> P st /\ step' (mv st) (mt t) = Ok (mv st'))) ->
  bind (for_each step' l' st0) k = Ok b.
Proof. intros H -> -> Hf HP Hk Hs. destruct (for_each_same mv P free step step' Hs l st st' Hf H HP) as [_ ->]. exact Hk. Qed.

Lemma parse_string_same t x : parse_string unq src t = Ok x ->
  ss_span x = span_of t /\ (same_string x -> parse_string unq src' (mt t) = Ok (move_string g x)).
Proof.
  intros H. assert (E : ss_span x = span_of t).
  { unfold parse_string in H. apply bind_ok in H. destruct H as (v & _ & H). injection H as <-. reflexivity. }
  split; [exact E|]. unfold same_string. rewrite E. intros K. unfold parse_string in *. rewrite !as_str_text, span_move, K in *.
  apply bind_ok in H. destruct H as (v & -> & H). injection H as <-. reflexivity.
Qed.

Lemma unquote_clean_same t x : unquote_clean unq src t = Ok x ->
  ss_span x = span_of t /\ (same_string x -> unquote_clean unq src' (mt t) = Ok (move_string g x)).
Proof.
  intros H. assert (E : ss_span x = span_of t).
  { unfold unquote_clean in H. apply bind_ok in H. destruct H as (v & _ & H). injection H as <-. reflexivity. }
  split; [exact E|]. unfold same_string. rewrite E. intros K. unfold unquote_clean in *. rewrite !as_str_text, span_move, K in *.
  apply bind_ok in H. destruct H as (v & -> & H). injection H as <-. reflexivity.
Qed.

(** ** Slots that are filled at most once *)

Definition slot {A} (K : class) (o : option A) (l : list tree) : Prop := tally K l <= match o with None => 1 | Some _ => 0 end.

Lemma slot_fill {A} (K : class) (o : option A) t l : slot K o (t :: l) -> K (t_rule t) = true -> o = None /\ forall x : A, slot K (Some x) l.
Proof.
  unfold slot, tally. cbn [filter]. intros H E. rewrite E in H. cbn [length] in H. destruct o; [lia|].
  split; [reflexivity|]. intros _. lia.
Qed.

Lemma slot_pass {A} (K : class) (o : option A) t l : slot K o (t :: l) -> slot K o l.
Proof. unfold slot, tally. cbn [filter]. intros H. destruct (K (t_rule t)); cbn [length] in H; destruct o; lia. Qed.

Definition free2 {A B} (K1 K2 : class) (st : option A * option B) (l : list tree) : Prop :=
  let '(a, b) := st in slot K1 a l /\ slot K2 b l /\ Forall orderly l.
Definition same2 {A B} (P : A -> Prop) (Q : B -> Prop) (st : option A * option B) : Prop :=
  let '(a, b) := st in same_option P a /\ same_option Q b.

Definition fields2 (r : rule) (K1 K2 : class) : Prop := fields_of r = [K1; K2].

Lemma start2 {A B} t K1 K2 : orderly t -> fields_of (t_rule t) = [K1; K2] -> free2 K1 K2 (@None A, @None B) (t_children t).
Proof.
  intros H E. destruct t as [r a b l]. apply orderly_inv in H. destruct H as [H Hl]. cbn [t_rule t_children] in *. rewrite E in H.
  inversion H as [|? ? H1 H']; subst. inversion H' as [|? ? H2 _]; subst. repeat split; assumption.
Qed.

Lemma children_orderly t : orderly t -> Forall orderly (t_children t).
Proof. intros H. destruct t as [r a b l]. apply orderly_inv in H. apply H. Qed.

(** A field that fills the first or the second slot *)
Lemma fill1 {A B} (f : A -> A) (h : B -> B) (P : A -> Prop) (Q : B -> Prop) K1 K2 a (b : option B) t l (o o' : outcome A) st' :
  free2 K1 K2 (a, b) (t :: l) -> K1 (t_rule t) = true -> (forall x, o = Ok x -> P x -> o' = Ok (f x)) ->
  (x <- o;; Ok (Some x, b)) = Ok st' ->
  free2 K1 K2 st' l /\ (same2 P Q st' -> same2 P Q (a, b) /\ (x <- o';; Ok (Some x, option_map h b)) = Ok (move2 f h st')).
Proof.
  intros (H1 & H2 & H3) HK Ho H. apply bind_ok in H. destruct H as (x & E & H). injection H as <-.
  destruct (slot_fill _ _ _ _ H1 HK) as [-> H1']. split.
  - split; [apply H1'|]. split; [eapply slot_pass; exact H2|]. inversion H3; assumption.
  - intros [K K']. split; [split; [exact I|exact K']|]. rewrite (Ho x E K). reflexivity.
Qed.

Lemma fill2 {A B} (f : A -> A) (h : B -> B) (P : A -> Prop) (Q : B -> Prop) K1 K2 (a : option A) b t l (o o' : outcome B) st' :
  free2 K1 K2 (a, b) (t :: l) -> K2 (t_rule t) = true -> (forall x, o = Ok x -> Q x -> o' = Ok (h x)) ->
  (x <- o;; Ok (a, Some x)) = Ok st' ->
  free2 K1 K2 st' l /\ (same2 P Q st' -> same2 P Q (a, b) /\ (x <- o';; Ok (option_map f a, Some x)) = Ok (move2 f h st')).
Proof.
  intros (H1 & H2 & H3) HK Ho H. apply bind_ok in H. destruct H as (x & E & H). injection H as <-.
  destruct (slot_fill _ _ _ _ H2 HK) as [-> H2']. split.
  - split; [eapply slot_pass; exact H1|]. split; [apply H2'|]. inversion H3; assumption.
  - intros [K K']. split; [split; [exact K|exact I]|]. rewrite (Ho x E K'). reflexivity.
Qed.

Lemma fill_none {A B} (f : A -> A) (h : B -> B) (P : A -> Prop) (Q : B -> Prop) K1 K2 (a : option A) (b : option B) t l st' :
  free2 K1 K2 (a, b) (t :: l) -> Ok (a, b) = Ok st' ->
  free2 K1 K2 st' l /\ (same2 P Q st' -> same2 P Q (a, b) /\ Ok (option_map f a, option_map h b) = Ok (move2 f h st')).
Proof.
  intros (H1 & H2 & H3) H. injection H as <-. split; [|auto].
  split; [eapply slot_pass; exact H1|]. split; [eapply slot_pass; exact H2|]. inversion H3; assumption.
Qed.

Lemma string_field t x : parse_string unq src t = Ok x -> same_string x -> parse_string unq src' (mt t) = Ok (move_string g x).
Proof. intros H. apply parse_string_same in H. apply H. Qed.
Lemma clean_field t x : unquote_clean unq src t = Ok x -> same_string x -> unquote_clean unq src' (mt t) = Ok (move_string g x).
Proof. intros H. apply unquote_clean_same in H. apply H. Qed.

(** A list that only grows *)
Lemma grow {A} (f : A -> A) (P : A -> Prop) (acc : list A) (o o' : outcome A) st' :
  (forall x, o = Ok x -> P x -> o' = Ok (f x)) -> (x <- o;; Ok (acc ++ [x])) = Ok st' -> Forall P st' ->
  Forall P acc /\ (x <- o';; Ok (map f acc ++ [x])) = Ok (map f st').
Proof.
  intros Ho H HP. apply bind_ok in H. destruct H as (x & E & H). injection H as <-. apply Forall_app in HP.
  destruct HP as [H1 H2]. apply Forall_inv in H2. rename H2 into Hx. split; [exact H1|]. rewrite (Ho x E Hx), map_app. reflexivity.
Qed.

Lemma tail_orderly t l : Forall orderly (t :: l) -> Forall orderly l.
Proof. inversion 1. assumption. Qed.
Lemma head_orderly t l : Forall orderly (t :: l) -> orderly t.
Proof. inversion 1. assumption. Qed.

(** ** The converters *)

Lemma array_same t x : parse_string_array unq src t = Ok x -> same_array x -> parse_string_array unq src' (mt t) = Ok (move_array g x).
Proof.
  unfold parse_string_array. intros H HP. apply bind_ok in H. destruct H as (l & E & H). injection H as <-.
  unfold same_array in HP. cbn [sa_elements] in HP. rewrite span_move.
  eapply (for_each_bind (map (move_string g)) (Forall same_string) (fun _ _ => True));
    [exact E|apply children_move|reflexivity|exact I|exact HP|reflexivity|].
  clear. intros st t l st' _ E. cbn beta iota in E |- *. rewrite rule_move.
  split; [exact I|]. intros HP. destruct (t_rule t); try discriminate; [injection E as <-; auto|].
    eapply grow; [apply string_field|exact E|exact HP].
Qed.

Lemma breakable_inner_same t : forall l, parse_any_breakable_inner src t = Ok l -> Forall same_component l ->
  parse_any_breakable_inner src' (mt t) = Ok (map (move_component g) l).
Proof.
  induction t as [r a b l IH] using tree_induction. cbn [move_tree parse_any_breakable_inner].
  assert (K : forall acc res,
    (fix loop (l : list tree) (components : list breakable_component) {struct l} :=
     match l with
     | [] => Ok components
     | field :: l' =>
       match t_rule field with
       | R_any_breakable =>
         more <- parse_any_breakable_inner src field;; loop l' (components ++ more)
       | R_comment =>
         loop l' (components ++ [BComment (SpannedComment (span_of field) (as_str src field))])
       | R_any_content =>
         loop l' (components ++ [BString (SpannedString (span_of field) (as_str src field))])
       | r => unexpected_token r
       end
     end) l acc = Ok res -> Forall same_component res -> Forall same_component acc /\
    (fix loop (l : list tree) (components : list breakable_component) {struct l} :=
     match l with
     | [] => Ok components
     | field :: l' =>
       match t_rule field with
       | R_any_breakable =>
         more <- parse_any_breakable_inner src' field;; loop l' (components ++ more)
       | R_comment =>
         loop l' (components ++ [BComment (SpannedComment (span_of field) (as_str src' field))])
       | R_any_content =>
         loop l' (components ++ [BString (SpannedString (span_of field) (as_str src' field))])
       | r => unexpected_token r
       end
     end) (map mt l) (map (move_component g) acc) = Ok (map (move_component g) res)).
  { induction l as [|t l IHl]; intros acc res H HP; [injection H as <-; auto|]. cbn [map].
    inversion IH as [|? ? It IH']. subst. specialize (IHl IH'). rewrite rule_move. destruct (t_rule t); try discriminate.
    - apply IHl in H; [|exact HP]. destruct H as [H1 H2]. apply Forall_app in H1. destruct H1 as [H1 H3]. split; [exact H1|].
      apply Forall_inv in H3. rename H3 into Hs. cbn [same_component sc_span] in Hs. rewrite (as_str_text src'), span_move, Hs, <- as_str_text.
      rewrite map_app in H2. exact H2.
    - apply IHl in H; [|exact HP]. destruct H as [H1 H2]. apply Forall_app in H1. destruct H1 as [H1 H3]. split; [exact H1|].
      apply Forall_inv in H3. rename H3 into Hs. cbn [same_component ss_span] in Hs. rewrite (as_str_text src'), span_move, Hs, <- as_str_text.
      rewrite map_app in H2. exact H2.
    - apply bind_ok in H. destruct H as (more & E & H). apply IHl in H; [|exact HP]. destruct H as [H1 H2].
      apply Forall_app in H1. destruct H1 as [H1 H3]. split; [exact H1|]. rewrite (It more E H3). rewrite map_app in H2. exact H2. }
  intros res H HP. exact (proj2 (K [] res H HP)).
Qed.

Lemma breakable_same t x : parse_any_breakable src t = Ok x -> same_breakable x -> parse_any_breakable src' (mt t) = Ok (move_breakable g x).
Proof.
  unfold parse_any_breakable. intros H HP. apply bind_ok in H. destruct H as (l & E & H). injection H as <-.
  rewrite (breakable_inner_same t l E HP), span_move. reflexivity.
Qed.

Lemma field_breakable t v : same_breakable (breakable_of_field t v) -> same (span_of t).
Proof. unfold same_breakable, breakable_of_field. cbn. intros H. inversion H. assumption. Qed.

Lemma regroup {A B C} (o : outcome A) (n : B) (f : A -> C) : (v <- o;; Ok (n, Some (f v))) = (x <- (v <- o;; Ok (f v));; Ok (n, Some x)).
Proof. destruct o; reflexivity. Qed.

Lemma quoted_field t x : (v <- unquote unq (as_str src t);; Ok (breakable_of_field t v)) = Ok x -> same_breakable x ->
  (v <- unquote unq (as_str src' (mt t));; Ok (breakable_of_field (mt t) v)) = Ok (move_breakable g x).
Proof.
  intros K HP. apply bind_ok in K. destruct K as (u & K & Ku). injection Ku as <-. apply field_breakable in HP.
  rewrite (as_str_text src'), span_move, HP, <- as_str_text, K. cbn [bind]. rewrite field_move. reflexivity.
Qed.

Lemma from_flag_same t x : orderly t -> t_rule t = R_from_flag -> from_flag_of unq src t = Ok x -> same_flag x ->
  from_flag_of unq src' (mt t) = Ok (move_flag g x).
Proof.
  intros Ht Er H HP. unfold from_flag_of in *. apply bind_ok in H. destruct H as ([n v] & E & H).
  apply bind_ok in H. destruct H as (n' & En & H). apply bind_ok in H. destruct H as (v' & Ev & H). injection H as <-.
  destruct n as [n|]; [|discriminate]. destruct v as [v|]; [|discriminate]. injection En as <-. injection Ev as <-.
  rewrite span_move. eapply (for_each_bind (move2 (move_string g) (move_string g)) (same2 same_string same_string));
    [exact E|apply children_move|reflexivity|eapply start2; [exact Ht|rewrite Er; reflexivity]|exact HP|reflexivity|].
  clear. intros [n v] t l st' Hf E. cbn beta iota in E |- *. cbn [move2]. rewrite rule_move.
  destruct (t_rule t) eqn:Er; try discriminate.
    + eapply fill1; [exact Hf|rewrite Er; reflexivity|apply string_field|exact E].
    + eapply fill2; [exact Hf|rewrite Er; reflexivity|apply string_field|exact E].
Qed.

Lemma copy_flag_same t x : orderly t -> t_rule t = R_copy_flag -> copy_flag_of unq src t = Ok x -> same_flag x ->
  copy_flag_of unq src' (mt t) = Ok (move_flag g x).
Proof.
  intros Ht Er H HP. unfold copy_flag_of in *. apply bind_ok in H. destruct H as ([n v] & E & H).
  apply bind_ok in H. destruct H as (n' & En & H). apply bind_ok in H. destruct H as (v' & Ev & H). injection H as <-.
  destruct n as [n|]; [|discriminate]. destruct v as [v|]; [|discriminate]. injection En as <-. injection Ev as <-.
  rewrite span_move. eapply (for_each_bind (move2 (move_string g) (move_string g)) (same2 same_string same_string));
    [exact E|apply children_move|reflexivity|eapply start2; [exact Ht|rewrite Er; reflexivity]|exact HP|reflexivity|].
  clear. intros [n v] t l st' Hf E. cbn beta iota in E |- *. cbn [move2]. rewrite rule_move.
  destruct (t_rule t) eqn:Er; try discriminate.
    + eapply fill1; [exact Hf|rewrite Er; reflexivity|apply string_field|exact E].
    + eapply fill2; [exact Hf|rewrite Er; reflexivity|apply string_field|exact E].
Qed.

Lemma arg_same t x : orderly t -> t_rule t = R_arg -> arg_of unq src t = Ok x -> same_instruction (IArg x) ->
  arg_of unq src' (mt t) = Ok (move_arg g x).
Proof.
  intros Ht Er H HP. unfold arg_of in *. apply bind_ok in H. destruct H as ([n v] & E & H).
  apply bind_ok in H. destruct H as (n' & En & H). injection H as <-.
  destruct n as [n|]; [|discriminate]. injection En as <-.
  rewrite span_move. eapply (for_each_bind (move2 (move_string g) (move_string g)) (same2 same_string same_string));
    [exact E|apply children_move|reflexivity|eapply start2; [exact Ht|rewrite Er; reflexivity]|exact HP|reflexivity|].
  clear. intros [n v] t l st' Hf E. cbn beta iota in E |- *. cbn [move2]. rewrite rule_move.
  destruct (t_rule t) eqn:Er; try discriminate.
    + eapply fill_none; [exact Hf|exact E].
    + eapply fill1; [exact Hf|rewrite Er; reflexivity|apply string_field|exact E].
    + eapply fill2; [exact Hf|rewrite Er; reflexivity|apply string_field|exact E].
    + eapply fill2; [exact Hf|rewrite Er; reflexivity|apply string_field|exact E].
Qed.

Lemma label_same t x : orderly t -> t_rule t = R_label_pair \/ t_rule t = R_label_single ->
  label_of unq src t = Ok x -> same_label x -> label_of unq src' (mt t) = Ok (move_label g x).
Proof.
  intros Ht Er H HP. unfold label_of in *. apply bind_ok in H. destruct H as ([n v] & E & H).
  apply bind_ok in H. destruct H as (n' & En & H). apply bind_ok in H. destruct H as (v' & Ev & H). injection H as <-.
  destruct n as [n|]; [|discriminate]. destruct v as [v|]; [|discriminate]. injection En as <-. injection Ev as <-.
  rewrite span_move. eapply (for_each_bind (move2 (move_string g) (move_string g)) (same2 same_string same_string));
    [exact E|apply children_move|reflexivity|eapply start2; [exact Ht|destruct Er as [Er|Er]; rewrite Er; reflexivity]|exact HP|reflexivity|].
  clear. intros [n v] t l st' Hf E. cbn beta iota in E |- *. cbn [move2]. rewrite rule_move.
  destruct (t_rule t) eqn:Er; try discriminate; try (eapply fill_none; [exact Hf|exact E]);
    first [eapply fill1; [exact Hf|rewrite Er; reflexivity|apply string_field|exact E]
          |eapply fill1; [exact Hf|rewrite Er; reflexivity|apply clean_field|exact E]
          |eapply fill2; [exact Hf|rewrite Er; reflexivity|apply string_field|exact E]
          |eapply fill2; [exact Hf|rewrite Er; reflexivity|apply clean_field|exact E]].
Qed.

Lemma label_instruction_same t x : orderly t -> label_instruction_of unq src t = Ok x -> same_instruction (ILabel x) ->
  label_instruction_of unq src' (mt t) = Ok (LabelInstruction (move_span g (label_span x)) (map (move_label g) (label_labels x))).
Proof.
  intros Ht. unfold label_instruction_of. intros H HP. apply bind_ok in H. destruct H as (l & E & H). injection H as <-.
  rewrite span_move. eapply (for_each_bind (map (move_label g)) (Forall same_label) (fun _ l => Forall orderly l));
    [exact E|apply children_move|reflexivity|apply children_orderly; exact Ht|exact HP|reflexivity|].
  clear. intros st t l st' Hf E. cbn beta iota in E |- *. rewrite rule_move.
  split; [eapply tail_orderly; exact Hf|]. intros HP. apply head_orderly in Hf.
    destruct (t_rule t) eqn:Er; try discriminate; try (injection E as <-; auto; fail);
      (eapply grow; [intros x; apply label_same; [exact Hf|tauto]|exact E|exact HP]).
Qed.

Lemma command_same r1 r2 t x : shell_or_exec_of unq src r1 r2 t = Ok x -> same_command x ->
  shell_or_exec_of unq src' r1 r2 (mt t) = Ok (move_command g x).
Proof.
  unfold shell_or_exec_of. rewrite children_move. destruct (t_children t) as [|u l]; [discriminate|]. cbn [map]. rewrite rule_move.
  destruct (rule_eq_dec (t_rule u) r1).
  - intros H HP. apply bind_ok in H. destruct H as (a & E & H). injection H as <-. rewrite (array_same u a E HP). reflexivity.
  - destruct (rule_eq_dec (t_rule u) r2); [|discriminate]. intros H HP. apply bind_ok in H. destruct H as (a & E & H). injection H as <-.
    rewrite (breakable_same u a E HP). reflexivity.
Qed.

Lemma pop_same (l a : list spanned_string) b : pop l = Some (a, b) -> Forall same_string a -> same_string b -> Forall same_string l.
Proof.
  revert a b. induction l as [|x l IH]; intros a b H Ha Hb; [discriminate|]. cbn [pop] in H.
  destruct (pop l) as [[a' b']|] eqn:E.
  - injection H as <- <-. inversion Ha; subst. constructor; [assumption|]. eapply IH; [reflexivity|eassumption|exact Hb].
  - injection H as <- <-. destruct l as [|y l]; [constructor; [exact Hb|constructor]|].
    cbn [pop] in E. destruct (pop l) as [[]|]; discriminate.
Qed.

Lemma copy_same t x : orderly t -> copy_of unq src t = Ok x -> same_instruction (ICopy x) -> copy_of unq src' (mt t) =
  Ok (CopyInstruction (move_span g (copy_span x)) (map (move_flag g) (copy_flags x))
      (map (move_string g) (copy_sources x)) (move_string g (copy_destination x))).
Proof.
  intros Ht H HP. unfold copy_of in *. apply bind_ok in H. destruct H as ([fl ps] & E & H).
  destruct (length ps <? 2) eqn:El; [discriminate|]. destruct (pop ps) as [[a b]|] eqn:Ep; [|discriminate]. injection H as <-.
  cbn [same_instruction copy_flags copy_sources copy_destination] in HP. destruct HP as (H1 & H2 & H3).
  pose proof (pop_same _ _ _ Ep H2 H3) as H4.
  rewrite span_move. eapply (for_each_bind (fun '(fl, ps) => (map (move_flag g) fl, map (move_string g) ps))
      (fun '(fl, ps) => Forall same_flag fl /\ Forall same_string ps) (fun _ l => Forall orderly l));
    [exact E|apply children_move|reflexivity|apply children_orderly; exact Ht|split; assumption
    |cbn [bind]; rewrite map_length, El, pop_map, Ep; reflexivity|].
  clear. intros [fl ps] t l st' Hf E. cbn beta iota in E |- *. rewrite rule_move.
  split; [eapply tail_orderly; exact Hf|]. apply head_orderly in Hf.
    destruct (t_rule t) eqn:Er; try discriminate; [injection E as <-; auto|..].
    + apply bind_ok in E. destruct E as (x & E & K). injection K as <-. intros [H1 H2]. apply Forall_app in H1. destruct H1 as [H1 H3].
      apply Forall_inv in H3. rename H3 into Hx. split; [split; assumption|]. rewrite (copy_flag_same t x Hf Er E Hx), map_app. reflexivity.
    + apply bind_ok in E. destruct E as (x & E & K). injection K as <-. intros [H1 H2]. apply Forall_app in H2. destruct H2 as [H2 H3].
      apply Forall_inv in H3. rename H3 into Hx. split; [split; assumption|]. rewrite (string_field t x E Hx), map_app. reflexivity.
Qed.

Lemma env_pair_same t x : orderly t -> t_rule t = R_env_pair -> env_pair_of unq src t = Ok x -> same_var x ->
  env_pair_of unq src' (mt t) = Ok (move_env g x).
Proof.
  intros Ht Er H HP. unfold env_pair_of in *. apply bind_ok in H. destruct H as ([n v] & E & H).
  apply bind_ok in H. destruct H as (n' & En & H). apply bind_ok in H. destruct H as (v' & Ev & H). injection H as <-.
  destruct n as [n|]; [|discriminate]. destruct v as [v|]; [|discriminate]. injection En as <-. injection Ev as <-.
  rewrite span_move. eapply (for_each_bind (move2 (move_string g) (move_breakable g)) (same2 same_string same_breakable));
    [exact E|apply children_move|reflexivity|eapply start2; [exact Ht|rewrite Er; reflexivity]|exact HP|reflexivity|].
  clear. intros [n v] t l st' Hf E. cbn beta iota in E |- *. cbn [move2]. rewrite rule_move.
  destruct (t_rule t) eqn:Er; try discriminate.
    + eapply fill1; [exact Hf|rewrite Er; reflexivity|apply string_field|exact E].
    + eapply (fill2 _ _ _ _ _ _ n v t l (Ok (breakable_of_field t (as_str src t))) (Ok (breakable_of_field (mt t) (as_str src' (mt t)))));
        [exact Hf|rewrite Er; reflexivity| |exact E].
      intros x K HP. injection K as <-. apply field_breakable in HP. rewrite (as_str_text src'), span_move, HP, <- as_str_text, field_move. reflexivity.
    + rewrite regroup in E |- *. eapply fill2; [exact Hf|rewrite Er; reflexivity|apply quoted_field|exact E].
Qed.

Notation move_env_instruction := (fun x => EnvInstruction (move_span g (env_span x)) (map (move_env g) (env_vars x))).

Lemma env_pairs_same sp t x : orderly t -> env_pairs_of unq src sp t = Ok x -> same_instruction (IEnv x) ->
  env_pairs_of unq src' (move_span g sp) (mt t) = Ok (move_env_instruction x).
Proof.
  intros Ht. unfold env_pairs_of. intros H HP. apply bind_ok in H. destruct H as (l & E & H). injection H as <-.
  eapply (for_each_bind (map (move_env g)) (Forall same_var) (fun _ l => Forall orderly l));
    [exact E|apply children_move|reflexivity|apply children_orderly; exact Ht|exact HP|reflexivity|].
  clear. intros st t l st' Hf E. cbn beta iota in E |- *. rewrite rule_move.
  split; [eapply tail_orderly; exact Hf|]. intros HP. apply head_orderly in Hf.
  destruct (t_rule t) eqn:Er; try discriminate; [injection E as <-; auto|].
  eapply grow; [intros x; apply env_pair_same; [exact Hf|exact Er]|exact E|exact HP].
Qed.

Lemma env_single_same sp t x : orderly t -> t_rule t = R_env_single -> env_single_of unq src sp t = Ok x -> same_instruction (IEnv x) ->
  env_single_of unq src' (move_span g sp) (mt t) = Ok (move_env_instruction x).
Proof.
  intros Ht Er H HP. unfold env_single_of in *. apply bind_ok in H. destruct H as ([n v] & E & H).
  apply bind_ok in H. destruct H as (n' & En & H). apply bind_ok in H. destruct H as (v' & Ev & H). injection H as <-.
  destruct n as [n|]; [|discriminate]. destruct v as [v|]; [|discriminate]. injection En as <-. injection Ev as <-.
  cbn [same_instruction env_vars] in HP. apply Forall_inv in HP.
  eapply (for_each_bind (move2 (move_string g) (move_breakable g)) (same2 same_string same_breakable));
    [exact E|apply children_move|reflexivity|eapply start2; [exact Ht|rewrite Er; reflexivity]|exact HP|reflexivity|].
  clear. intros [n v] t l st' Hf E. cbn beta iota in E |- *. cbn [move2]. rewrite rule_move.
  destruct (t_rule t) eqn:Er; try discriminate.
  - eapply fill_none; [exact Hf|exact E].
  - eapply fill1; [exact Hf|rewrite Er; reflexivity|apply string_field|exact E].
  - rewrite regroup in E |- *. eapply fill2; [exact Hf|rewrite Er; reflexivity|apply quoted_field|exact E].
  - eapply fill2; [exact Hf|rewrite Er; reflexivity|apply breakable_same|exact E].
Qed.

Lemma env_same t x : orderly t -> env_of unq src t = Ok x -> same_instruction (IEnv x) -> env_of unq src' (mt t) = Ok (move_env_instruction x).
Proof.
  intros Ht. unfold env_of. rewrite children_move, span_move. apply children_orderly in Ht. destruct (t_children t) as [|u l]; [discriminate|].
  cbn [map]. rewrite rule_move. apply head_orderly in Ht.
  destruct (t_rule u) eqn:Er; try discriminate; [apply env_pairs_same; exact Ht|apply env_single_same; assumption].
Qed.

Lemma misc_same t x : orderly t -> t_rule t = R_misc -> misc_of unq src t = Ok x -> same_instruction (IMisc x) -> misc_of unq src' (mt t) =
  Ok (MiscInstruction (move_span g (misc_span x)) (move_string g (misc_name x)) (move_breakable g (misc_arguments x))).
Proof.
  intros Ht Er H HP. unfold misc_of in *. apply bind_ok in H. destruct H as ([n v] & E & H).
  apply bind_ok in H. destruct H as (n' & En & H). apply bind_ok in H. destruct H as (v' & Ev & H). injection H as <-.
  destruct n as [n|]; [|discriminate]. destruct v as [v|]; [|discriminate]. injection En as <-. injection Ev as <-.
  rewrite span_move. eapply (for_each_bind (move2 (move_string g) (move_breakable g)) (same2 same_string same_breakable));
    [exact E|apply children_move|reflexivity|eapply start2; [exact Ht|rewrite Er; reflexivity]|exact HP|reflexivity|].
  clear. intros [n v] t l st' Hf E. cbn beta iota in E |- *. cbn [move2]. rewrite rule_move.
  destruct (t_rule t) eqn:Er; try discriminate.
  - eapply fill1; [exact Hf|rewrite Er; reflexivity|apply string_field|exact E].
  - eapply fill2; [exact Hf|rewrite Er; reflexivity|apply breakable_same|exact E].
Qed.

Definition free3 (K1 K2 : class) (st : option tree * option tree * list flag) (l : list tree) : Prop :=
  let '(a, b, _) := st in slot K1 a l /\ slot K2 b l /\ Forall orderly l.
Definition same3 (st : option tree * option tree * list flag) : Prop :=
  let '(a, b, fl) := st in same_option (fun t => same (span_of t)) a /\ same_option (fun t => same (span_of t)) b /\ Forall same_flag fl.

Lemma from_same t n x : orderly t -> t_rule t = R_from -> from_of unq src t n = Ok x -> same_instruction (IFrom x) ->
  from_of unq src' (mt t) n = Ok (move_from g x).
Proof.
  intros Ht Er H HP. unfold from_of in *. apply bind_ok in H. destruct H as ([[i a] fl] & E & H).
  apply bind_ok in H. destruct H as (im & Ei & H). apply bind_ok in H. destruct H as (u & Eh & H).
  apply bind_ok in H. destruct H as (al & Ea & H). injection H as <-.
  cbn [same_instruction from_flags from_image from_alias] in HP. destruct HP as (H1 & H2 & H3).
  destruct i as [ti|]; [|discriminate]. destruct (parse_string_same ti im Ei) as [Si Ki].
  assert (Ka : same_option (fun t => same (span_of t)) a /\
    match option_map mt a with Some f => x <- parse_string unq src' f;; Ok (Some x) | None => Ok None end = Ok (option_map (move_string g) al)).
  { destruct a as [ta|]; [|split; [exact I|injection Ea as <-; reflexivity]]. apply bind_ok in Ea. destruct Ea as (xa & Ea & K). injection K as <-.
    destruct (parse_string_same ta xa Ea) as [Sa Ka]. cbn [same_option] in *. split; [unfold same_string in H3; rewrite Sa in H3; exact H3|].
    cbn [option_map]. rewrite (Ka H3). reflexivity. }
  destruct Ka as [Ka1 Ka2]. rewrite span_move.
  eapply (for_each_bind (move_fields g) same3 (free3 _ _)); [exact E|apply children_move|reflexivity| |split; [|split]| |].
  - pose proof (@start2 tree tree t _ _ Ht ltac:(rewrite Er; reflexivity)) as K. exact K.
  - cbn [same_option]. unfold same_string in H2. rewrite Si in H2. exact H2.
  - exact Ka1.
  - exact H1.
  - cbn [move_fields option_map]. rewrite (Ki H2). cbn [bind]. cbn [move_string ss_content]. rewrite Eh. cbn [bind]. rewrite Ka2. reflexivity.
  - clear. intros [[i a] fl] t l st' (H1 & H2 & H3) E. cbn beta iota in E |- *. pose proof (head_orderly _ _ H3) as Ht. apply tail_orderly in H3.
    cbn [move_fields]. rewrite rule_move. destruct (t_rule t) eqn:Er; try discriminate.
    + injection E as <-. split; [|auto]. split; [eapply slot_pass; exact H1|]. split; [eapply slot_pass; exact H2|exact H3].
    + apply bind_ok in E. destruct E as (x & E & K). injection K as <-. split.
      { split; [eapply slot_pass; exact H1|]. split; [eapply slot_pass; exact H2|exact H3]. }
      intros (P1 & P2 & P3). apply Forall_app in P3. destruct P3 as [P3 P4]. apply Forall_inv in P4. split; [split; [exact P1|split; assumption]|].
      rewrite (from_flag_same t x Ht Er E P4). cbn [bind move_fields]. rewrite map_app. reflexivity.
    + injection E as <-. destruct (slot_fill _ _ _ _ H1 ltac:(rewrite Er; reflexivity)) as [-> K].
      split; [split; [apply K|]; split; [eapply slot_pass; exact H2|exact H3]|]. intros (P1 & P2 & P3). split; [split; [exact I|auto]|reflexivity].
    + injection E as <-. destruct (slot_fill _ _ _ _ H2 ltac:(rewrite Er; reflexivity)) as [-> K].
      split; [split; [eapply slot_pass; exact H1|]; split; [apply K|exact H3]|]. intros (P1 & P2 & P3). split; [split; [exact P1|split; [exact I|exact P3]]|reflexivity].
Qed.

Theorem instruction_same t i : orderly t -> instruction_of unq src t = Ok i -> same_instruction i ->
  instruction_of unq src' (mt t) = Ok (move_instruction g i).
Proof.
  intros Ht H HP. unfold instruction_of in *. rewrite rule_move. destruct (t_rule t) eqn:Er; try discriminate;
    apply bind_ok in H; destruct H as (x & E & K); injection K as <-.
  - rewrite (from_same t 0 x Ht Er E HP). reflexivity.
  - rewrite (arg_same t x Ht Er E HP). reflexivity.
  - rewrite (label_instruction_same t x Ht E HP). reflexivity.
  - unfold run_of in *. apply bind_ok in E. destruct E as (e & E & K). injection K as <-. rewrite (command_same _ _ t e E HP), span_move. reflexivity.
  - unfold entrypoint_of in *. apply bind_ok in E. destruct E as (e & E & K). injection K as <-. rewrite (command_same _ _ t e E HP), span_move. reflexivity.
  - unfold cmd_of in *. apply bind_ok in E. destruct E as (e & E & K). injection K as <-. rewrite (command_same _ _ t e E HP), span_move. reflexivity.
  - rewrite (copy_same t x Ht E HP). reflexivity.
  - rewrite (env_same t x Ht E HP). reflexivity.
  - rewrite (misc_same t x Ht Er E HP). reflexivity.
Qed.

(** From the parts of the instruction *)
Lemma parts_same i : (forall y, In y (within (instruction_part i)) -> part_carried y <> Nothing -> same (part_span y)) -> same_instruction i.
Proof.
  intros H. assert (K : forall y, In y (parts i) -> forall z, In z (within y) -> part_carried z <> Nothing -> same (part_span z)).
  { intros y Hy z Hz. apply H. cbn [instruction_part within]. right. apply in_flat_map. exists y. auto. }
  clear H.
  assert (Ks : forall s, (forall z, In z (within (string_part s)) -> part_carried z <> Nothing -> same (part_span z)) -> same_string s).
  { intros s Hs. apply (Hs (string_part s)); [left; reflexivity|discriminate]. }
  assert (Kb : forall s, (forall z, In z (within (breakable_part s)) -> part_carried z <> Nothing -> same (part_span z)) -> same_breakable s).
  { intros s Hs. apply Forall_forall. intros c Hc.
    assert (K1 : In (component_part c) (within (breakable_part s))).
    { cbn [breakable_part within]. right. apply in_flat_map. exists (component_part c). split; [apply in_map; exact Hc|]. destruct c; left; reflexivity. }
    destruct c as [c|c]; apply (Hs _ K1); discriminate. }
  assert (Ke : forall e, (forall z, In z (within (command_part e)) -> part_carried z <> Nothing -> same (part_span z)) -> same_command e).
  { intros [s|a] He; [apply Kb; exact He|]. apply Forall_forall. intros c Hc. apply Ks. intros z Hz. apply He.
    cbn [command_part array_part within]. right. apply in_flat_map. exists (string_part c). split; [apply in_map; exact Hc|exact Hz]. }
  assert (K2 : forall (sp : span) (x y : part), (forall z, In z (within (Part sp Nothing [x; y])) -> part_carried z <> Nothing -> same (part_span z)) ->
    (forall z, In z (within x) -> part_carried z <> Nothing -> same (part_span z)) /\
    (forall z, In z (within y) -> part_carried z <> Nothing -> same (part_span z))).
  { intros sp x y Hp. split; intros z Hz; apply Hp; cbn [within flat_map]; right; apply in_or_app; [left; exact Hz|].
    right. apply in_or_app. left. exact Hz. }
  assert (Kf : forall f, (forall z, In z (within (flag_part f)) -> part_carried z <> Nothing -> same (part_span z)) -> same_flag f).
  { intros f Hf. apply K2 in Hf. split; apply Ks; apply Hf. }
  assert (Kl : forall f, (forall z, In z (within (label_part f)) -> part_carried z <> Nothing -> same (part_span z)) -> same_label f).
  { intros f Hf. apply K2 in Hf. split; apply Ks; apply Hf. }
  assert (Kv : forall f, (forall z, In z (within (var_part f)) -> part_carried z <> Nothing -> same (part_span z)) -> same_var f).
  { intros f Hf. apply K2 in Hf. split; [apply Ks|apply Kb]; apply Hf. }
  assert (Km : forall o, (forall y, In y (maybe o) -> forall z, In z (within y) -> part_carried z <> Nothing -> same (part_span z)) ->
    same_option same_string o).
  { intros [s|] Ho; [|exact I]. apply Ks. apply Ho. left. reflexivity. }
  destruct i as [x|x|x|x|x|x|x|x|x]; cbn [parts same_instruction] in *.
  - split; [|split].
    + apply Forall_forall. intros f Hf. apply Kf. apply K. apply in_or_app. left. apply in_map. exact Hf.
    + apply Ks. apply K. apply in_or_app. right. left. reflexivity.
    + apply Km. intros y Hy. apply K. apply in_or_app. right. right. exact Hy.
  - split; [apply Ks, K; left; reflexivity|apply Km; intros y Hy; apply K; right; exact Hy].
  - apply Forall_forall. intros f Hf. apply Kl. apply K. apply in_map. exact Hf.
  - apply Ke, K. left. reflexivity.
  - apply Ke, K. left. reflexivity.
  - apply Ke, K. left. reflexivity.
  - split; [|split].
    + apply Forall_forall. intros f Hf. apply Kf. apply K. apply in_or_app. left. apply in_map. exact Hf.
    + apply Forall_forall. intros f Hf. apply Ks. apply K. apply in_or_app. right. apply in_or_app. left. apply in_map. exact Hf.
    + apply Ks. apply K. apply in_or_app. right. apply in_or_app. right. left. reflexivity.
  - apply Forall_forall. intros f Hf. apply Kv. apply K. apply in_map. exact Hf.
  - split; [apply Ks|apply Kb]; apply K; [left; reflexivity|right; left; reflexivity].
Qed.

End ConvertSame.
