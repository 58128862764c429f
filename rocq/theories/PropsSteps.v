(** Values and other changes made in several places through one splicer (C81).  The
    notions used are those of SpecSteps.v. *)

From Coq Require Import String Permutation.
From Verif Require Import Bytes BytesFacts Grammar Peg Result Ast Splicer Image Convert Dockerfile Enquote
  SpecImage SpecSplice SplicerFacts SpecSyntax SpecClear SpecMove SpecParts SpecDoc SpecReword SpecArgument SpecAlias SpecJoin SpecChanges SpecValues SpecSteps
  PartsFacts DocFacts ParseFacts SelectFacts PropsParse PropsDoc PropsEdit ParseEdit RewordDoc RewordFacts PropsJoin PropsBlocks PropsWrite PropsAlias
  ChangesFacts ChangesNames PropsChanges ValuesDoc PropsValues StepsFacts.
From Verif Require Sound.
Local Open Scope nat_scope.

(** ** Any number of steps, in any order *)

Theorem C81_steps unq input d ss ops : valid_utf8 input = true -> parse unq input = Ok d ->
  in_order 0 (length input) (map step_span ss) -> (forall s, In s ss -> can_take unq d s) ->
  fits input (map step_edit ss) -> Permutation (map step_edit ss) ops ->
  exists st, splice_all (splicer_from d) ops = Ok st /\ valid_utf8 (sp_content st) = true /\
    parse unq (sp_content st) = Ok (all_taken ss d).
Proof.
  intros V E Ho Hc Hf Hp. destruct (steps_taken unq input d V E ss 0 Ho ltac:(lia) Hc) as (V' & E' & T' & _). cbn [firstn app] in T'.
  assert (Em : map fst (map step_edit ss) = map step_span ss) by (rewrite map_map; reflexivity).
  destruct (splice_disjoint input (map step_edit ss) ops V) as (st & Es & Et & Eu); [rewrite Em; exact Ho| |exact Hf|exact Hp|].
  { intros e He. apply in_map_iff in He. destruct He as (c & <- & Hi). destruct (step_bounds unq input d V E c (Hc c Hi)) as (_ & _ & B & T).
    split; [exact B|exact T]. }
  exists st. split; [unfold splicer_from; rewrite (parse_content _ _ _ E); exact Es|]. split; [exact Eu|]. rewrite Et, <- T'. exact E'.
Qed.

(** ** An instruction that nothing is done in only moves *)

Lemma step_alone unq W d s i : valid_utf8 W = true -> parse unq W = Ok d -> can_take unq d s -> In i (d_instructions d) ->
  disjoint (step_span s) (instruction_span i) -> step_instruction s i = move_instruction (step_offset s) i.
Proof.
  intros V E Hs Hi D. destruct s as [c|sp t v]; cbn [step_instruction step_span] in *.
  - exact (moved_alone unq W d c i V E Hs Hi D).
  - f_equal. apply with_value_away. intros K. pose proof (place_inside unq W d V E i sp Hi K) as [I1 I2].
    destruct (place_bounded unq W d V E i sp Hi K) as (L & _). unfold disjoint in D. lia.
Qed.

Theorem C81_others unq input d ss n i : valid_utf8 input = true -> parse unq input = Ok d ->
  in_order 0 (length input) (map step_span ss) -> (forall s, In s ss -> can_take unq d s) ->
  nth_error (d_instructions d) n = Some i -> (forall s, In s ss -> disjoint (step_span s) (instruction_span i)) ->
  nth_error (d_instructions (all_taken ss d)) n = Some (move_instruction (after_edits (map step_edit ss)) i).
Proof.
  intros V E Ho Hc Hn Hd. revert Ho Hc Hd. generalize 0. induction ss as [|c ss IH]; intros b Ho Hc Hd; cbn [all_taken fold_right map].
  - rewrite Hn. f_equal. symmetry. apply (move_instruction_id i).
  - cbn [map in_order] in Ho. destruct Ho as (L1 & L2 & L3 & Ho). fold (all_taken ss d).
    assert (Hc' : forall c', In c' ss -> can_take unq d c') by (intros c' K; apply Hc; right; exact K).
    destruct (steps_taken unq input d V E ss _ Ho L3 Hc') as (V' & E' & _ & K').
    assert (Hk : can_take unq (all_taken ss d) c) by (apply K'; [apply Hc; left; reflexivity|lia]).
    destruct (one_step unq _ _ V' E' c Hk) as (_ & _ & _ & Ei).
    specialize (IH _ Ho Hc' (fun c' K => Hd c' (or_intror K))). rewrite Ei, nth_error_map, IH. cbn [option_map]. f_equal.
    rewrite (step_alone unq _ _ c _ V' E' Hk).
    + rewrite move_instruction_comp. reflexivity.
    + apply nth_error_In in IH. exact IH.
    + assert (Es : instruction_span (move_instruction (after_edits (map step_edit ss)) i) = move_span (after_edits (map step_edit ss)) (instruction_span i))
        by (destruct i; reflexivity).
      rewrite Es. assert (Em : map fst (map step_edit ss) = map step_span ss) by (rewrite map_map; reflexivity).
      pose proof (in_order_bounds _ _ _ _ (C06_instructions_in_order unq input d V E) (in_map instruction_span _ _ (nth_error_In _ _ Hn))) as (_ & Li & _).
      apply (after_disjoint _ (s_end (step_span c)) (length input)); [rewrite Em; exact Ho|lia|lia|lia|apply Hd; left; reflexivity].
Qed.

Theorem C81_kinds ss d : map kind_of (d_instructions (all_taken ss d)) = map kind_of (d_instructions d).
Proof.
  induction ss as [|s ss IH]; [reflexivity|]. cbn [all_taken fold_right]. fold (all_taken ss d). rewrite <- IH.
  assert (K : d_instructions (taken s (all_taken ss d)) = map (step_instruction s) (d_instructions (all_taken ss d))) by (destruct s; reflexivity).
  rewrite K, map_map. apply map_ext. intros i. destruct s as [[ | | | ]|]; destruct i; reflexivity.
Qed.

(** ** Values only: all of them put at once *)

Lemma put_string_more sp t v vs s : put_string sp v (put_strings vs s) = put_strings ((sp, t, v) :: vs) s.
Proof.
  assert (S : ss_span (put_strings vs s) = ss_span s) by (unfold put_strings; destruct (value_for vs (ss_span s)); reflexivity).
  unfold put_string. rewrite S. unfold put_strings at 2. cbn [value_for]. destruct (span_eq_dec (ss_span s) sp) as [->|_]; reflexivity.
Qed.
Lemma put_value_more sp t v vs s : put_value sp v (put_values vs s) = put_values ((sp, t, v) :: vs) s.
Proof.
  assert (S : br_span (put_values vs s) = br_span s) by (unfold put_values; destruct (value_for vs (br_span s)); reflexivity).
  unfold put_value. rewrite S. unfold put_values at 2. cbn [value_for]. destruct (span_eq_dec (br_span s) sp) as [->|_]; reflexivity.
Qed.
Lemma put_arg_more sp t v vs x : put_arg sp v (put_args vs x) = put_args ((sp, t, v) :: vs) x.
Proof.
  unfold put_arg, put_args. cbn [arg_span arg_name arg_value]. f_equal. destruct (arg_value x) as [s|]; [|reflexivity]. cbn [option_map]. f_equal. apply put_string_more.
Qed.
Lemma with_value_more sp t v vs i : with_value sp v (with_values vs i) = with_values ((sp, t, v) :: vs) i.
Proof.
  assert (C : forall e, put_command sp v (put_commands vs e) = put_commands ((sp, t, v) :: vs) e).
  { intros [e|a]; [reflexivity|]. cbn [put_commands put_command sa_span sa_elements]. do 2 f_equal. rewrite map_map. apply map_ext. intros s. apply put_string_more. }
  destruct i as [x|x|x|x|x|x|x|x|x]; cbn [with_values with_value]; try reflexivity; f_equal.
  - exact (put_arg_more sp t v vs x).
  - cbn [label_span label_labels]. f_equal. rewrite map_map. apply map_ext. intros l. unfold put_label. cbn [lb_span lb_name lb_value]. f_equal. apply put_string_more.
  - cbn [run_span run_expr]. f_equal. apply C.
  - cbn [entrypoint_span entrypoint_expr]. f_equal. apply C.
  - cbn [cmd_span cmd_expr]. f_equal. apply C.
  - cbn [env_span env_vars]. f_equal. rewrite map_map. apply map_ext. intros l. unfold put_env. cbn [ev_span ev_key ev_value]. f_equal. apply put_value_more.
Qed.

Lemma no_values i : with_values [] i = i.
Proof.
  assert (S : forall s, put_strings [] s = s) by reflexivity.
  assert (C : forall e, put_commands [] e = e).
  { intros [e|[a l]]; [reflexivity|]. cbn [put_commands sa_span sa_elements]. do 2 f_equal. rewrite <- (map_id l) at 2. apply map_ext. exact S. }
  destruct i as [x|x|x|x|x|x|x|x|x]; cbn [with_values]; try reflexivity; f_equal; destruct x; unfold put_args; cbn; f_equal; try apply C.
  - destruct arg_value; reflexivity.
  - rewrite <- (map_id label_labels) at 2. apply map_ext. intros []. reflexivity.
  - rewrite <- (map_id env_vars) at 2. apply map_ext. intros []. reflexivity.
Qed.

Lemma with_moved g sp v i : (forall y, In y (quotable_places i) -> move_span g y = sp -> y = sp) -> move_span g sp = sp ->
  with_value sp v (move_instruction g i) = move_instruction g (with_value sp v i).
Proof.
  intros Inj Fix.
  assert (S : forall s, In (ss_span s) (quotable_places i) -> put_string sp v (move_string g s) = move_string g (put_string sp v s)).
  { intros s Hs. unfold put_string. cbn [move_string ss_span ss_content]. destruct (span_eq_dec (ss_span s) sp) as [K|K].
    - rewrite K, Fix. destruct (span_eq_dec sp sp); [|congruence]. unfold move_string. cbn [ss_span ss_content]. rewrite Fix. reflexivity.
    - destruct (span_eq_dec (move_span g (ss_span s)) sp) as [K2|_]; [|reflexivity]. elim K. apply Inj; assumption. }
  assert (B : forall s, In (br_span s) (quotable_places i) -> put_value sp v (move_breakable g s) = move_breakable g (put_value sp v s)).
  { intros s Hs. unfold put_value. cbn [move_breakable br_span]. destruct (span_eq_dec (br_span s) sp) as [K|K].
    - rewrite K, Fix. destruct (span_eq_dec sp sp); [|congruence]. unfold move_breakable. cbn [br_span br_components map move_component move_string ss_span ss_content].
      unfold move_string. cbn [ss_span ss_content]. rewrite Fix. reflexivity.
    - destruct (span_eq_dec (move_span g (br_span s)) sp) as [K2|_]; [|reflexivity]. elim K. apply Inj; assumption. }
  assert (C : forall e, (forall y, In y (command_places e) -> In y (quotable_places i)) -> put_command sp v (move_command g e) = move_command g (put_command sp v e)).
  { intros [e|a] Hp; [reflexivity|]. cbn [put_command move_command]. unfold move_array. cbn [sa_span sa_elements]. do 2 f_equal. rewrite !map_map. apply map_ext_in. intros s Hs.
    apply S, Hp. cbn [command_places]. apply in_map. exact Hs. }
  destruct i as [x|x|x|x|x|x|x|x|x]; cbn [move_instruction with_value quotable_places] in *; try reflexivity; f_equal; unfold move_arg; cbn;  f_equal; try (apply C; auto).
  - destruct (arg_value x) as [s|]; [|reflexivity]. cbn [option_map]. f_equal. apply S. right. left. reflexivity.
  - rewrite !map_map. apply map_ext_in. intros l Hl. unfold move_label, put_label. cbn [lb_span lb_name lb_value]. f_equal. apply S. apply in_flat_map.
    exists l. split; [exact Hl|right; left; reflexivity].
  - rewrite !map_map. apply map_ext_in. intros l Hl. unfold move_env, put_env. cbn [ev_span ev_key ev_value]. f_equal. apply B. apply in_flat_map.
    exists l. split; [exact Hl|right; left; reflexivity].
Qed.

Lemma with_values_places vs i : quotable_places (with_values vs i) = quotable_places i.
Proof.
  induction vs as [|[[sp t] v] vs IH]; [rewrite no_values; reflexivity|]. rewrite <- with_value_more, with_places. exact IH.
Qed.

Lemma pv_spans vs : map step_span (map pv_step vs) = map fst (map pv_edit vs).
Proof. rewrite !map_map. apply map_ext. intros [[sp t] v]. reflexivity. Qed.

Lemma values_at_once unq input d : valid_utf8 input = true -> parse unq input = Ok d -> forall vs b,
  in_order b (length input) (map fst (map pv_edit vs)) -> b <= length input -> (forall x, In x vs -> can_take unq d (pv_step x)) ->
  d_instructions (all_taken (map pv_step vs) d) = map (fun i => move_instruction (after_edits (map pv_edit vs)) (with_values vs i)) (d_instructions d) /\
  d_global_args (all_taken (map pv_step vs) d) = map (fun x => move_arg (after_edits (map pv_edit vs)) (put_args vs x)) (d_global_args d).
Proof.
  intros V E vs. induction vs as [|[[sp t] v] vs IH]; intros b Ho Hb Hc; cbn [map all_taken fold_right].
  - assert (K : map (fun i => move_instruction (after_edits []) (with_values [] i)) (d_instructions d) = d_instructions d).
    { rewrite <- (map_id (d_instructions d)) at 2. apply map_ext. intros i. rewrite no_values. apply (move_instruction_id i). }
    split; [symmetry; exact K|]. rewrite <- (map_id (d_global_args d)) at 1. apply map_ext. intros x.
    pose proof (no_values (IArg x)) as K1. cbn [with_values] in K1. injection K1 as K1. rewrite K1.
    pose proof (move_instruction_id (IArg x)) as K2. cbn [move_instruction] in K2. injection K2 as K2. symmetry. exact K2.
  - cbn [map in_order fst pv_edit] in Ho. destruct Ho as (L1 & L2 & L3 & Ho). fold (all_taken (map pv_step vs) d).
    destruct (IH _ Ho L3) as [I1 I2]; [intros x Hx; apply Hc; right; exact Hx|]. cbn [pv_step taken value_changed d_instructions d_global_args].
    rewrite I1, I2, !map_map. set (g := after_edits (map pv_edit vs)).
    set (g1 := replacement (s_start sp) (s_end sp) (length t)).
    assert (Fix : move_span g sp = sp).
    { destruct sp as [a e]. unfold move_span. cbn [s_start s_end] in *. unfold g. rewrite (proj1 (after_low _ _ _ Ho a)) by lia.
      rewrite (proj1 (after_low _ _ _ Ho e)) by lia. reflexivity. }
    destruct (Hc _ (or_introl eq_refl)) as (_ & _ & i0 & Hi0 & Hp0 & _).
    assert (Inj : forall i y, In i (d_instructions d) -> In y (quotable_places i) -> move_span g y = sp -> y = sp).
    { intros i y Hi Hy Ey. destruct (selection_spans unq input d _ V E (places_selected (d_instructions d))) as [Hpo _].
      destruct (in_order_disjoint _ _ _ y sp Hpo) as [K|K]; [apply in_flat_map; eauto|apply in_flat_map; exists i0; split; [exact Hi0|apply value_places; exact Hp0]|exact K|].
      exfalso. destruct (place_bounded unq input d V E i y Hi Hy) as (Ly & _). 
      assert (Es : g (s_start y) = s_start sp) by (rewrite <- Ey; reflexivity).
      destruct (Nat.le_gt_cases (s_start y) (s_end sp)) as [Q|Q].
      - unfold g in Es. rewrite (proj1 (after_low _ _ _ Ho _) Q) in Es. unfold disjoint in K. lia.
      - pose proof (proj2 (after_low _ _ _ Ho (s_start y)) ltac:(lia)) as Q2. unfold g in Es. lia. }
    assert (Each : forall i, In i (d_instructions d) ->
      move_instruction g1 (with_value sp v (move_instruction g (with_values vs i))) =
      move_instruction (after_edits ((sp, t) :: map pv_edit vs)) (with_values ((sp, t, v) :: vs) i)).
    { intros i Hi. rewrite with_moved; [|intros y Hy Ey; apply (Inj i y Hi); [rewrite with_values_places in Hy; exact Hy|exact Ey]|exact Fix].
      rewrite (with_value_more sp t v), move_instruction_comp. reflexivity. }
    split; [apply map_ext_in; exact Each|]. apply map_ext_in. intros x Hx.
    assert (Hi : In (IArg x) (d_instructions d)).
    { destruct (parse_global_args _ _ _ E) as (pre & Hpre & Ea). rewrite Ea in Hx. unfold args_among in Hx. apply in_flat_map in Hx. destruct Hx as (i & Hi & Hx).
      destruct i; cbn in Hx; try (destruct Hx; fail). destruct Hx as [->|[]]. destruct Hpre as (rest & -> & _). apply in_or_app. left. exact Hi. }
    exact (f_equal (fun j => match j with IArg a => a | _ => x end) (Each _ Hi)).
Qed.

Theorem C81_values unq input d vs ops : valid_utf8 input = true -> parse unq input = Ok d ->
  in_order 0 (length input) (map fst (map pv_edit vs)) -> (forall sp t v, In (sp, t, v) vs -> can_take unq d (NewValue sp t v)) ->
  fits input (map pv_edit vs) -> Permutation (map pv_edit vs) ops ->
  exists st, splice_all (splicer_from d) ops = Ok st /\ parse unq (sp_content st) = Ok (values_changed vs (sp_content st) d).
Proof.
  intros V E Ho Hc Hf Hp.
  assert (Hc' : forall x, In x vs -> can_take unq d (pv_step x)) by (intros [[sp t] v] Hx; exact (Hc sp t v Hx)).
  assert (Ee : map step_edit (map pv_step vs) = map pv_edit vs) by (rewrite map_map; apply map_ext; intros [[sp t] v]; reflexivity).
  destruct (C81_steps unq input d (map pv_step vs) ops V E) as (st & Es & _ & Ep).
  - rewrite pv_spans. exact Ho.
  - intros s Hs. apply in_map_iff in Hs. destruct Hs as (x & <- & Hx). exact (Hc' x Hx).
  - rewrite Ee. exact Hf.
  - rewrite Ee. exact Hp.
  - exists st. split; [exact Es|]. rewrite Ep. f_equal. destruct (values_at_once unq input d V E vs 0 Ho ltac:(lia) Hc') as [I1 I2].
    pose proof (parse_content _ _ _ Ep) as Ec. unfold values_changed. cbv zeta. rewrite <- I1, <- I2, <- Ec. destruct (all_taken (map pv_step vs) d); reflexivity.
Qed.

(** ** Any strings can be put there, between quotes *)

Theorem C81_any_string unq d i sp s : inverts unq -> In i (d_instructions d) -> value_place i sp -> any_string i s ->
  closed_quotes (firstn (s_start sp) (d_content d)) -> closed_lines (firstn (s_start (instruction_span i)) (d_content d)) ->
  can_take unq d (NewValue sp (quote s) s).
Proof.
  intros U Hi Hp Hs Hq Hl. split; [apply quote_valid; destruct i; cbn [any_string] in Hs; apply Hs|]. split; [exact Hq|]. exists i.
  split; [exact Hi|]. split; [exact Hp|]. split; [apply quote_value; eauto|exact Hl].
Qed.

(** ** Examples *)

Definition valued_values : list placed_value :=
  [(Span 6 7, bs "3.19", bs "3.19"); (Span 26 31, bs "n", bs "n"); (Span 34 35, quote odd_string, odd_string); (Span 42 47, bs "'s'", bs "s");
   (Span 53 56, quote (bs "a, b"), bs "a, b"); (Span 58 61, bs "'z'", bs "z")].
Definition valued_steps : list step := map pv_step valued_values ++ [Change (NewImage (Span 68 69) (bs "c:1") (image_parse (bs "c:1")))].

Ltac new_word_here := split; [split; [split; [discriminate|split; [repeat constructor|reflexivity]]|split; [intros [(t & K)|(t & K)]; discriminate K|apply not_backslash; reflexivity]]|
  do 2 eexists; split; [reflexivity|]; repeat split; discriminate].
Ltac itself := right; split; [|reflexivity]; let K := fresh in let H := fresh in intros (c & t & K & H); vm_compute in K; injection K as <- _; destruct H as [H|[H|H]]; discriminate.

Example C81_can : in_order 0 (length valued) (map step_span valued_steps) /\ fits valued (map step_edit valued_steps) /\
  forall s, In s valued_steps -> can_take enquote_unquote valued_doc s.
Proof.
  assert (L3 : closed_lines (firstn 18 valued)).
  { exists (bs "  "). split; [repeat constructor|]. right. exists (firstn 14 valued), [CR; LF]. split; [reflexivity|]. split; [last_line 8 (firstn 14 valued)|].
    split; [intros r; apply no_quote_before; repeat constructor; discriminate|]. split; [constructor|]. intros (t & K). discriminate K. }
  assert (L4 : closed_lines (firstn 36 valued)).
  { exists []. split; [constructor|]. right. exists (firstn 35 valued), [LF]. split; [reflexivity|]. split; [apply (complete_line (firstn 16 valued) (bs "  LABEL k=""o p"" l=m"))|].
    1: right; exists (firstn 15 valued), LF; split; reflexivity.
    1: repeat constructor.
    1: exists 76%N; split; [right; right; left; reflexivity|reflexivity].
    1: cbn; intros H; repeat (destruct H as [H|H]; [discriminate|]); exact H.
    1: apply not_backslash; vm_compute; reflexivity.
    split; [intros r; apply closed_apart; vm_compute; reflexivity|]. split; [constructor|]. intros _ (a0 & K). apply (f_equal (fun l => last l 0%N)) in K.
    rewrite last_last in K. vm_compute in K. discriminate. }
  assert (L5 : closed_lines (firstn 48 valued)).
  { exists []. split; [constructor|]. right. exists (firstn 47 valued), [LF]. split; [reflexivity|]. split; [last_line 36 (firstn 47 valued)|].
    split; [intros r; apply closed_apart; vm_compute; reflexivity|]. split; [constructor|]. intros _ (a0 & K). apply (f_equal (fun l => last l 0%N)) in K.
    rewrite last_last in K. vm_compute in K. discriminate. }
  split; [vm_compute; lia|]. split; [vm_compute; reflexivity|]. intros s Hs. unfold valued_steps, valued_values in Hs. cbn [map pv_step app] in Hs.
  destruct Hs as [<-|[<-|[<-|[<-|[<-|[<-|[<-|[]]]]]]]].
  - split; [reflexivity|]. split; [intros r; apply closed_apart; vm_compute; reflexivity|]. eexists. split; [left; reflexivity|]. split; [eexists; split; reflexivity|].
    split; [split; [right; new_word_here|itself]|]. exists []. split; [constructor|left; reflexivity].
  - split; [reflexivity|]. split; [intros r; apply closed_apart; vm_compute; reflexivity|]. eexists. split; [do 2 right; left; reflexivity|].
    split; [eexists; split; [left; reflexivity|reflexivity]|]. split; [right; split; [new_word_here|itself]|exact L3].
  - eapply C81_any_string; [exact enquote_inverts|do 2 right; left; reflexivity|eexists; split; [right; left; reflexivity|reflexivity]| |intros r; apply closed_apart; vm_compute; reflexivity|exact L3].
    split; [split; [reflexivity|split; intros K; vm_compute in K; repeat (destruct K as [K|K]; [discriminate K|]); exact K]|].
    intros a b K. assert (In LF odd_string) as H by (rewrite K; apply in_or_app; right; right; left; reflexivity).
    vm_compute in H. repeat (destruct H as [H|H]; [discriminate H|]). exact H.
  - split; [reflexivity|]. split; [intros r; apply closed_apart; vm_compute; reflexivity|]. eexists. split; [do 3 right; left; reflexivity|].
    split; [eexists; split; [left; reflexivity|reflexivity]|]. split; [|exact L4].
    left. split; [|reflexivity]. exists SQUOTE, (bs "s"). split; [right; reflexivity|]. split; [reflexivity|]. split; [|reflexivity].
    constructor; [discriminate..|constructor].
  - eapply C81_any_string; [exact enquote_inverts|do 4 right; left; reflexivity|eexists; split; [left; reflexivity|reflexivity]| |intros r; apply closed_apart; vm_compute; reflexivity|exact L5].
    split; [reflexivity|split; intros K; vm_compute in K; repeat (destruct K as [K|K]; [discriminate K|]); exact K].
  - split; [reflexivity|]. split; [intros r; apply closed_apart; vm_compute; reflexivity|]. eexists. split; [do 4 right; left; reflexivity|].
    split; [eexists; split; [right; left; reflexivity|reflexivity]|]. split; [|exact L5].
    split; [|reflexivity]. exists SQUOTE, (bs "z"). split; [right; reflexivity|]. split; [reflexivity|]. split; [|reflexivity].
    constructor; [discriminate..|constructor].
  - cbn [can_take can_make]. split.
    + split; [split; [discriminate|repeat constructor]|]. split; [apply ImageFacts.image_parse_spec; reflexivity|]. intros h K. vm_compute in K. discriminate.
    + eexists. split; [do 5 right; left; reflexivity|reflexivity].
Qed.

Definition valued_calls : list edit :=
  [(Span 58 61, bs "'z'"); (Span 6 7, bs "3.19"); (Span 68 69, bs "c:1"); (Span 34 35, quote odd_string); (Span 53 56, quote (bs "a, b")); (Span 26 31, bs "n");
   (Span 42 47, bs "'s'")].
Example C81_case : exists st, Permutation (map step_edit valued_steps) valued_calls /\
  splice_all (splicer_from valued_doc) valued_calls = Ok st /\
  sp_content st = bs "ARG V=3.19" ++ [LF] ++ bs "FROM a" ++ [CR; LF] ++ bs "  LABEL k=n l=""it's \""C:\\\""""" ++ [LF] ++ bs "ENV P 's'" ++ [LF] ++
    bs "CMD [""a, b"", 'z']" ++ [LF] ++ bs "FROM c:1" /\
  parse enquote_unquote (sp_content st) = Ok (all_taken valued_steps valued_doc).
Proof.
  eexists. split.
  { unfold valued_calls, valued_steps, valued_values. cbn [map pv_step app step_edit step_span step_text change_span change_text].
    apply NoDup_Permutation; [|  |].
    - repeat (constructor; [intros K; cbn [In] in K; repeat (destruct K as [K|K]; [discriminate K|]); exact K|]). constructor.
    - repeat (constructor; [intros K; cbn [In] in K; repeat (destruct K as [K|K]; [discriminate K|]); exact K|]). constructor.
    - intros e. cbn [In]. tauto. }
  split; [vm_compute; reflexivity|]. split; [vm_compute; reflexivity|]. vm_compute. reflexivity.
Qed.

(** The values alone, in the order in which they stand *)
Example C81_values_case : exists st, splice_all (splicer_from valued_doc) (map pv_edit valued_values) = Ok st /\
  parse enquote_unquote (sp_content st) = Ok (values_changed valued_values (sp_content st) valued_doc) /\
  match nth 4 (d_instructions (values_changed valued_values (sp_content st) valued_doc)) nothing with
  | ICmd x => match cmd_expr x with Exec a => map ss_content (sa_elements a) = [bs "a, b"; bs "z"] | _ => False end
  | _ => False
  end.
Proof.
  eexists. split; [vm_compute; reflexivity|]. split; [vm_compute; reflexivity|]. vm_compute. reflexivity.
Qed.

Print Assumptions C81_steps.
Print Assumptions C81_others.
Print Assumptions C81_kinds.
Print Assumptions C81_values.
Print Assumptions C81_any_string.
