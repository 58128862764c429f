(** Names, values and other changes made in several places through one splicer (C83).  The
    notions used are those of SpecActs.v. *)

From Coq Require Import String Permutation.
From Verif Require Import Bytes BytesFacts Grammar Peg Result Ast Splicer Image Convert Dockerfile Enquote
  SpecImage SpecSplice SplicerFacts SpecSyntax SpecClear SpecExact SpecMove SpecParts SpecDoc SpecReword SpecArgument SpecAlias SpecJoin SpecChanges SpecValues SpecSteps
  SpecKeys SpecActs PartsFacts DocFacts ParseFacts SelectFacts PropsParse PropsDoc PropsEdit ParseEdit RewordDoc RewordFacts PropsJoin PropsBlocks PropsWrite PropsAlias
  ChangesFacts ChangesNames PropsChanges ValuesDoc PropsValues StepsFacts PropsSteps KeysDoc PropsKeys ActsFacts.
From Verif Require Import SpecKeys SpecActs.
From Verif Require Sound.
Local Open Scope nat_scope.

(** ** Any number of acts, in any order *)

Theorem C83_acts unq input d l ops : valid_utf8 input = true -> parse unq input = Ok d ->
  in_order 0 (length input) (map act_span l) -> (forall a, In a l -> can_do unq d a) ->
  fits input (map act_edit l) -> Permutation (map act_edit l) ops ->
  exists st, splice_all (splicer_from d) ops = Ok st /\ valid_utf8 (sp_content st) = true /\
    parse unq (sp_content st) = Ok (all_done l d).
Proof.
  intros V E Ho Hc Hf Hp. destruct (acts_done unq input d V E l 0 Ho ltac:(lia) Hc) as (V' & E' & T' & _). cbn [firstn app] in T'.
  assert (Em : map fst (map act_edit l) = map act_span l) by (rewrite map_map; reflexivity).
  destruct (splice_disjoint input (map act_edit l) ops V) as (st & Es & Et & Eu); [rewrite Em; exact Ho| |exact Hf|exact Hp|].
  { intros e He. apply in_map_iff in He. destruct He as (c & <- & Hi). destruct (act_bounds unq input d V E c (Hc c Hi)) as (_ & _ & B & T).
    split; [exact B|exact T]. }
  exists st. split; [unfold splicer_from; rewrite (parse_content _ _ _ E); exact Es|]. split; [exact Eu|]. rewrite Et, <- T'. exact E'.
Qed.

(** ** An instruction that nothing is done in only moves *)

Lemma act_alone unq W d a i : valid_utf8 W = true -> parse unq W = Ok d -> can_do unq d a -> In i (d_instructions d) ->
  disjoint (act_span a) (instruction_span i) -> act_instruction a i = move_instruction (act_offset a) i.
Proof.
  intros V E Hs Hi D. destruct a as [s|sp t v]; cbn [act_instruction act_span] in *.
  - exact (step_alone unq W d s i V E Hs Hi D).
  - f_equal. apply with_name_away. intros K. pose proof (place_inside unq W d V E i sp Hi K) as [I1 I2].
    destruct (place_bounded unq W d V E i sp Hi K) as (L & _). unfold disjoint in D. lia.
Qed.

Theorem C83_others unq input d l n i : valid_utf8 input = true -> parse unq input = Ok d ->
  in_order 0 (length input) (map act_span l) -> (forall a, In a l -> can_do unq d a) ->
  nth_error (d_instructions d) n = Some i -> (forall a, In a l -> disjoint (act_span a) (instruction_span i)) ->
  nth_error (d_instructions (all_done l d)) n = Some (move_instruction (after_edits (map act_edit l)) i).
Proof.
  intros V E Ho Hc Hn Hd. revert Ho Hc Hd. generalize 0. induction l as [|c l IH]; intros b Ho Hc Hd; cbn [all_done fold_right map].
  - rewrite Hn. f_equal. symmetry. apply (move_instruction_id i).
  - cbn [map in_order] in Ho. destruct Ho as (L1 & L2 & L3 & Ho). fold (all_done l d).
    assert (Hc' : forall c', In c' l -> can_do unq d c') by (intros c' K; apply Hc; right; exact K).
    destruct (acts_done unq input d V E l _ Ho L3 Hc') as (V' & E' & _ & K').
    assert (Hk : can_do unq (all_done l d) c) by (apply K'; [apply Hc; left; reflexivity|lia]).
    destruct (one_act unq _ _ V' E' c Hk) as (_ & _ & _ & Ei).
    specialize (IH _ Ho Hc' (fun c' K => Hd c' (or_intror K))). rewrite Ei, nth_error_map, IH. cbn [option_map]. f_equal.
    rewrite (act_alone unq _ _ c _ V' E' Hk).
    + rewrite move_instruction_comp. reflexivity.
    + apply nth_error_In in IH. exact IH.
    + assert (Es : instruction_span (move_instruction (after_edits (map act_edit l)) i) = move_span (after_edits (map act_edit l)) (instruction_span i))
        by (destruct i; reflexivity).
      rewrite Es. assert (Em : map fst (map act_edit l) = map act_span l) by (rewrite map_map; reflexivity).
      pose proof (in_order_bounds _ _ _ _ (C06_instructions_in_order unq input d V E) (in_map instruction_span _ _ (nth_error_In _ _ Hn))) as (_ & Li & _).
      apply (after_disjoint _ (s_end (act_span c)) (length input)); [rewrite Em; exact Ho|lia|lia|lia|apply Hd; left; reflexivity].
Qed.

Theorem C83_kinds l d : map kind_of (d_instructions (all_done l d)) = map kind_of (d_instructions d).
Proof.
  induction l as [|a l IH]; [reflexivity|]. cbn [all_done fold_right]. fold (all_done l d). rewrite <- IH.
  assert (K : d_instructions (done a (all_done l d)) = map (act_instruction a) (d_instructions (all_done l d))) by (destruct a as [[]|]; reflexivity).
  rewrite K, map_map. apply map_ext. intros i. destruct a as [[[ | | | ]|]|]; destruct i; reflexivity.
Qed.

(** ** Names and values only: all of them put at once *)

(** No name stands where a value stands. *)
Lemma name_not_value unq W d i j sp : valid_utf8 W = true -> parse unq W = Ok d -> In i (d_instructions d) -> In j (d_instructions d) ->
  name_place i sp -> value_place j sp -> False.
Proof.
  intros V E Hi Hj Hn Hv. pose proof (place_inside unq W d V E i sp Hi (name_places _ _ Hn)) as [I1 I2].
  pose proof (place_inside unq W d V E j sp Hj (value_places _ _ Hv)) as [J1 J2]. destruct (place_bounded unq W d V E i sp Hi (name_places _ _ Hn)) as (L & _).
  assert (i = j) as <-.
  { destruct (in_order_disjoint _ _ _ _ _ (C06_instructions_in_order unq W d V E) (in_map instruction_span _ _ Hi) (in_map instruction_span _ _ Hj)) as [Es|D];
      [exact (own_instruction unq W d V E i j Hi Hj Es)|]. unfold disjoint in D. lia. }
  destruct (selection_spans unq W d _ V E (places_selected (d_instructions d))) as [Ho _].
  apply in_order_nodup in Ho. apply in_split in Hi. destruct Hi as (l1 & l2 & El). rewrite El, flat_map_app in Ho. cbn [flat_map] in Ho.
  assert (Ni : NoDup (quotable_places i)).
  { clear - Ho. induction (flat_map quotable_places l1) as [|y l IH]; cbn [app] in Ho; [|inversion Ho; auto].
    induction (quotable_places i) as [|y l IH]; [constructor|]. cbn [app] in Ho. inversion Ho as [|? ? N1 N2]; subst.
    constructor; [|apply IH; exact N2]. intros K. apply N1. apply in_or_app. left. exact K. }
  assert (Z : forall (T : Type) (f g : T -> span) l x y, NoDup (flat_map (fun x => [f x; g x]) l) -> In x l -> In y l -> f x <> g y).
  { intros T f g l. induction l as [|z l IH]; intros x y N; [intros []|]. cbn [flat_map app] in N. inversion N as [|? ? N1 N2]; subst.
    inversion N2 as [|? ? N3 N4]; subst. intros [<-|Hx] [<-|Hy] K.
    - apply N1. left. symmetry. exact K.
    - apply N1. right. apply in_flat_map. exists y. split; [exact Hy|right; left; symmetry; exact K].
    - apply N3. apply in_flat_map. exists x. split; [exact Hx|left; exact K].
    - exact (IH x y N4 Hx Hy K). }
  destruct i as [x|x|x|x|x|x|x|x|x]; cbn [name_place value_place quotable_places] in *; try contradiction.
  - destruct Hv as (s & Hs & <-). rewrite Hs in Ni. inversion Ni as [|? ? N1 _]; subst. apply N1. left. symmetry. exact Hn.
  - destruct Hn as (l & Hl & El'). destruct Hv as (m & Hm & Em). rewrite <- Em in El'. exact (Z _ (fun l => ss_span (lb_name l)) (fun l => ss_span (lb_value l)) _ l m Ni Hl Hm El').
  - destruct Hn as (l & Hl & El'). destruct Hv as (m & Hm & Em). rewrite <- Em in El'. exact (Z _ (fun l => ss_span (ev_key l)) (fun l => br_span (ev_value l)) _ l m Ni Hl Hm El').
Qed.

Lemma put_strings_skip sp t v ps s : ss_span s <> sp -> put_strings ((sp, t, v) :: ps) s = put_strings ps s.
Proof. intros H. unfold put_strings. cbn [value_for]. destruct (span_eq_dec (ss_span s) sp); [contradiction|reflexivity]. Qed.
Lemma put_values_skip sp t v ps s : br_span s <> sp -> put_values ((sp, t, v) :: ps) s = put_values ps s.
Proof. intros H. unfold put_values. cbn [value_for]. destruct (span_eq_dec (br_span s) sp); [contradiction|reflexivity]. Qed.

Lemma names_skip sp t v ps i : ~ name_place i sp -> put_names ((sp, t, v) :: ps) i = put_names ps i.
Proof.
  intros H. destruct i as [x|x|x|x|x|x|x|x|x]; cbn [put_names name_place] in *; try reflexivity.
  - rewrite put_strings_skip by exact H. reflexivity.
  - do 2 f_equal. apply map_ext_in. intros l Hl. rewrite put_strings_skip by (intros K; apply H; eauto). reflexivity.
  - do 2 f_equal. apply map_ext_in. intros l Hl. rewrite put_strings_skip by (intros K; apply H; eauto). reflexivity.
Qed.
Lemma values_skip sp t v ps i : ~ value_place i sp -> with_values ((sp, t, v) :: ps) i = with_values ps i.
Proof.
  intros H. assert (C : forall e, ~ (match e with Exec a => exists s, In s (sa_elements a) /\ ss_span s = sp | Shell _ => False end) -> put_commands ((sp, t, v) :: ps) e = put_commands ps e).
  { intros [e|a] K; [reflexivity|]. cbn [put_commands]. do 2 f_equal. apply map_ext_in. intros s Hs. apply put_strings_skip. intros Q. apply K. eauto. }
  destruct i as [x|x|x|x|x|x|x|x|x]; cbn [with_values value_place] in *; try reflexivity.
  - unfold put_args. do 2 f_equal. destruct (arg_value x) as [s|]; [|reflexivity]. cbn [option_map]. f_equal. apply put_strings_skip. intros K. apply H. eauto.
  - do 2 f_equal. apply map_ext_in. intros l Hl. rewrite put_strings_skip by (intros K; apply H; eauto). reflexivity.
  - rewrite C; [reflexivity|]. destruct (run_expr x); [tauto|exact H].
  - rewrite C; [reflexivity|]. destruct (entrypoint_expr x); [tauto|exact H].
  - rewrite C; [reflexivity|]. destruct (cmd_expr x); [tauto|exact H].
  - do 2 f_equal. apply map_ext_in. intros l Hl. rewrite put_values_skip by (intros K; apply H; eauto). reflexivity.
Qed.

Lemma put_names_value ps i sp : value_place (put_names ps i) sp -> value_place i sp.
Proof.
  destruct i as [x|x|x|x|x|x|x|x|x]; cbn [put_names value_place]; intros H; try exact H.
  - destruct H as (l & Hl & <-). cbn [label_labels] in Hl. apply in_map_iff in Hl. destruct Hl as (m & <- & Hm). exists m. split; [exact Hm|reflexivity].
  - destruct H as (l & Hl & <-). cbn [env_vars] in Hl. apply in_map_iff in Hl. destruct Hl as (m & <- & Hm). exists m. split; [exact Hm|reflexivity].
Qed.

Lemma with_name_values sp v ps i : with_name sp v (with_values ps i) = with_values ps (with_name sp v i).
Proof.
  destruct i as [x|x|x|x|x|x|x|x|x]; cbn [with_name with_values]; try reflexivity; do 2 f_equal; cbn [label_labels env_vars]; rewrite !map_map; reflexivity.
Qed.
Lemma with_name_more sp t v ps i : with_name sp v (put_names ps i) = put_names ((sp, t, v) :: ps) i.
Proof.
  destruct i as [x|x|x|x|x|x|x|x|x]; cbn [with_name put_names]; try reflexivity; f_equal.
  - unfold rename_arg. cbn [arg_span arg_name arg_value]. f_equal. apply put_string_more.
  - cbn [label_span label_labels]. f_equal. rewrite map_map. apply map_ext. intros l. unfold rename_label. cbn [lb_span lb_name lb_value]. f_equal. apply put_string_more.
  - cbn [env_span env_vars]. f_equal. rewrite map_map. apply map_ext. intros l. unfold rename_env. cbn [ev_span ev_key ev_value]. f_equal. apply put_string_more.
Qed.
Lemma no_names i : put_names [] i = i.
Proof.
  destruct i as [x|x|x|x|x|x|x|x|x]; cbn [put_names]; try reflexivity; f_equal; destruct x; cbn; f_equal.
  - rewrite <- (map_id label_labels) at 2. apply map_ext. intros []. reflexivity.
  - rewrite <- (map_id env_vars) at 2. apply map_ext. intros []. reflexivity.
Qed.

Lemma with_name_moved g sp v i : (forall y, In y (quotable_places i) -> move_span g y = sp -> y = sp) -> move_span g sp = sp ->
  with_name sp v (move_instruction g i) = move_instruction g (with_name sp v i).
Proof.
  intros Inj Fix.
  assert (S : forall s, In (ss_span s) (quotable_places i) -> put_string sp v (move_string g s) = move_string g (put_string sp v s)).
  { intros s Hs. unfold put_string. cbn [move_string ss_span ss_content]. destruct (span_eq_dec (ss_span s) sp) as [K|K].
    - rewrite K, Fix. destruct (span_eq_dec sp sp); [|congruence]. unfold move_string. cbn [ss_span ss_content]. rewrite Fix. reflexivity.
    - destruct (span_eq_dec (move_span g (ss_span s)) sp) as [K2|_]; [|reflexivity]. elim K. apply Inj; assumption. }
  destruct i as [x|x|x|x|x|x|x|x|x]; cbn [move_instruction with_name quotable_places] in *; try reflexivity; f_equal.
  - unfold move_arg, rename_arg. cbn [arg_span arg_name arg_value]. f_equal. apply S. left. reflexivity.
  - cbn [label_span label_labels]. f_equal. rewrite !map_map. apply map_ext_in. intros l Hl. unfold move_label, rename_label. cbn [lb_span lb_name lb_value]. f_equal. apply S. apply in_flat_map.
    exists l. split; [exact Hl|left; reflexivity].
  - cbn [env_span env_vars]. f_equal. rewrite !map_map. apply map_ext_in. intros l Hl. unfold move_env, rename_env. cbn [ev_span ev_key ev_value]. f_equal. apply S. apply in_flat_map.
    exists l. split; [exact Hl|left; reflexivity].
Qed.

Lemma put_names_places ps i : quotable_places (put_names ps i) = quotable_places i.
Proof.
  induction ps as [|[[sp t] v] ps IH]; [rewrite no_names; reflexivity|]. rewrite <- with_name_more, renamed_places. exact IH.
Qed.
Lemma with_strings_places ps i : quotable_places (with_strings ps i) = quotable_places i.
Proof. unfold with_strings. rewrite with_values_places. apply put_names_places. Qed.

(** The acts of a list of strings and places *)
Definition act_for (x : placed_value) (a : act) : Prop :=
  let '(sp, t, v) := x in a = NewName sp t v \/ a = Step (NewValue sp t v).

Lemma for_edits ps l : Forall2 act_for ps l -> map act_edit l = map pv_edit ps.
Proof.
  induction 1 as [|[[sp t] v] a ps l H _ IH]; [reflexivity|]. cbn [map]. rewrite IH. f_equal. destruct H as [-> | ->]; reflexivity.
Qed.

Lemma strings_at_once unq input d : valid_utf8 input = true -> parse unq input = Ok d -> forall ps l, Forall2 act_for ps l -> forall b,
  in_order b (length input) (map act_span l) -> b <= length input -> (forall a, In a l -> can_do unq d a) ->
  d_instructions (all_done l d) = map (fun i => move_instruction (after_edits (map pv_edit ps)) (with_strings ps i)) (d_instructions d) /\
  d_global_args (all_done l d) = map (fun x => move_arg (after_edits (map pv_edit ps)) (with_arg_strings ps x)) (d_global_args d).
Proof.
  intros V E ps l F. induction F as [|[[sp t] v] a ps l Ha F IH]; intros b Ho Hb Hc; cbn [map all_done fold_right].
  - assert (K : map (fun i => move_instruction (after_edits []) (with_strings [] i)) (d_instructions d) = d_instructions d).
    { rewrite <- (map_id (d_instructions d)) at 2. apply map_ext. intros i. unfold with_strings. rewrite no_names, no_values. apply (move_instruction_id i). }
    split; [symmetry; exact K|]. rewrite <- (map_id (d_global_args d)) at 1. apply map_ext. intros x.
    pose proof (no_values (IArg x)) as K1. cbn [with_values] in K1. injection K1 as K1.
    pose proof (move_instruction_id (IArg x)) as K2. cbn [move_instruction] in K2. injection K2 as K2. symmetry. rewrite <- K2 at 2. f_equal. exact K1.
  - assert (Hsp : act_span a = sp) by (destruct Ha as [-> | ->]; reflexivity).
    cbn [map in_order] in Ho. rewrite Hsp in Ho. destruct Ho as (L1 & L2 & L3 & Ho). fold (all_done l d).
    destruct (IH _ Ho L3) as [I1 I2]; [intros x Hx; apply Hc; right; exact Hx|].
    assert (Ho' : in_order (s_end sp) (length input) (map fst (map pv_edit ps))).
    { rewrite <- (for_edits _ _ F), map_map. exact Ho. }
    set (g := after_edits (map pv_edit ps)) in *. set (g1 := replacement (s_start sp) (s_end sp) (length t)).
    assert (Fix : move_span g sp = sp).
    { destruct sp as [lo hi]. unfold move_span. cbn [s_start s_end] in *. unfold g. rewrite (proj1 (after_low _ _ _ Ho' lo)) by lia.
      rewrite (proj1 (after_low _ _ _ Ho' hi)) by lia. reflexivity. }
    pose proof (Hc a (or_introl eq_refl)) as Hca.
    assert (Pl : exists i0, In i0 (d_instructions d) /\ In sp (quotable_places i0)).
    { destruct Ha as [-> | ->]; destruct Hca as (_ & _ & i0 & Hi0 & Hp0 & _); exists i0; split; auto using name_places, value_places. }
    destruct Pl as (i0 & Hi0 & Hp0).
    assert (Inj : forall i y, In i (d_instructions d) -> In y (quotable_places i) -> move_span g y = sp -> y = sp).
    { intros i y Hi Hy Ey. destruct (selection_spans unq input d _ V E (places_selected (d_instructions d))) as [Hpo _].
      destruct (in_order_disjoint _ _ _ y sp Hpo) as [K|K]; [apply in_flat_map; eauto|apply in_flat_map; eauto|exact K|].
      exfalso. destruct (place_bounded unq input d V E i y Hi Hy) as (Ly & _).
      assert (Es : g (s_start y) = s_start sp) by (rewrite <- Ey; reflexivity).
      destruct (Nat.le_gt_cases (s_start y) (s_end sp)) as [Q|Q].
      - unfold g in Es. rewrite (proj1 (after_low _ _ _ Ho' _) Q) in Es. unfold disjoint in K. lia.
      - pose proof (proj2 (after_low _ _ _ Ho' (s_start y)) ltac:(lia)) as Q2. unfold g in Es. lia. }
    assert (Inj' : forall i, In i (d_instructions d) -> forall y, In y (quotable_places (with_strings ps i)) -> move_span g y = sp -> y = sp).
    { intros i Hi y Hy. rewrite with_strings_places in Hy. exact (Inj i y Hi Hy). }
    assert (Each : forall i, In i (d_instructions d) ->
      act_instruction a (move_instruction g (with_strings ps i)) =
      move_instruction (after_edits ((sp, t) :: map pv_edit ps)) (with_strings ((sp, t, v) :: ps) i)).
    { intros i Hi. assert (G : forall j, move_instruction g1 (move_instruction g j) = move_instruction (after_edits ((sp, t) :: map pv_edit ps)) j)
        by (intros j; rewrite move_instruction_comp; reflexivity).
      destruct Ha as [-> | ->]; cbn [act_instruction step_instruction].
      - rewrite with_name_moved by (apply Inj' || exact Fix; exact Hi). change (act_offset (NewName sp t v)) with g1. rewrite G. f_equal. unfold with_strings.
        rewrite with_name_values, (with_name_more sp t v). symmetry. apply values_skip. intros K. apply put_names_value in K.
        destruct Hca as (_ & _ & j & Hj & Hp & _). exact (name_not_value unq input d j i sp V E Hj Hi Hp K).
      - rewrite with_moved by (apply Inj' || exact Fix; exact Hi). change (step_offset (NewValue sp t v)) with g1. rewrite G. f_equal. unfold with_strings.
        rewrite (with_value_more sp t v). f_equal. symmetry. apply names_skip. intros K.
        destruct Hca as (_ & _ & j & Hj & Hp & _). exact (name_not_value unq input d i j sp V E Hi Hj K Hp). }
    split.
    + replace (d_instructions (done a (all_done l d))) with (map (act_instruction a) (d_instructions (all_done l d))) by (destruct Ha as [-> | ->]; reflexivity).
      rewrite I1, map_map. apply map_ext_in. exact Each.
    + assert (Ag : d_global_args (done a (all_done l d)) = map (fun x => match act_instruction a (IArg x) with IArg y => y | _ => x end) (d_global_args (all_done l d)))
        by (destruct Ha as [-> | ->]; reflexivity).
      rewrite Ag, I2, map_map. apply map_ext_in. intros x Hx.
      assert (Hi : In (IArg x) (d_instructions d)).
      { destruct (parse_global_args _ _ _ E) as (pre & Hpre & Ea). rewrite Ea in Hx. unfold args_among in Hx. apply in_flat_map in Hx. destruct Hx as (i & Hi & Hx).
        destruct i; cbn in Hx; try (destruct Hx; fail). destruct Hx as [->|[]]. destruct Hpre as (rest & -> & _). apply in_or_app. left. exact Hi. }
      specialize (Each _ Hi).
      change (move_instruction g (with_strings ps (IArg x))) with (IArg (move_arg g (with_arg_strings ps x))) in Each. rewrite Each. reflexivity.
Qed.

Theorem C83_strings unq input d ps ops : valid_utf8 input = true -> parse unq input = Ok d ->
  in_order 0 (length input) (map fst (map pv_edit ps)) -> (forall x, In x ps -> can_put unq d x) ->
  fits input (map pv_edit ps) -> Permutation (map pv_edit ps) ops ->
  exists st, splice_all (splicer_from d) ops = Ok st /\ parse unq (sp_content st) = Ok (strings_changed ps (sp_content st) d).
Proof.
  intros V E Ho Hc Hf Hp.
  assert (Acts : exists l, Forall2 act_for ps l /\ forall a, In a l -> can_do unq d a).
  { clear - Hc. induction ps as [|[[sp t] v] ps IH]; [exists []; split; [constructor|intros a []]|].
    destruct IH as (l & F & C); [intros x Hx; apply Hc; right; exact Hx|].
    destruct (Hc _ (or_introl eq_refl)) as [H|H].
    - exists (NewName sp t v :: l). split; [constructor; [left; reflexivity|exact F]|]. intros a [<-|Ha]; auto.
    - exists (Step (NewValue sp t v) :: l). split; [constructor; [right; reflexivity|exact F]|]. intros a [<-|Ha]; auto. }
  destruct Acts as (l & F & C). pose proof (for_edits _ _ F) as Ee.
  assert (Es : map act_span l = map fst (map pv_edit ps)) by (rewrite <- Ee, map_map; reflexivity).
  destruct (C83_acts unq input d l ops V E) as (st & Est & _ & Ep); [rewrite Es; exact Ho|exact C|rewrite Ee; exact Hf|rewrite Ee; exact Hp|].
  exists st. split; [exact Est|]. rewrite Ep. f_equal. rewrite <- Es in Ho. destruct (strings_at_once unq input d V E ps l F 0 Ho ltac:(lia) C) as [I1 I2].
  pose proof (parse_content _ _ _ Ep) as Ec. unfold strings_changed. cbv zeta. rewrite <- I1, <- I2, <- Ec. destruct (all_done l d); reflexivity.
Qed.

(** ** Any strings can be the names and values of labels, between quotes *)

Theorem C83_any_label unq d x l s s' : inverts unq -> In (ILabel x) (d_instructions d) -> In l (label_labels x) ->
  PropsWrite.label_text s -> PropsWrite.label_text s' ->
  closed_quotes (firstn (s_start (ss_span (lb_name l))) (d_content d)) -> closed_quotes (firstn (s_start (ss_span (lb_value l))) (d_content d)) ->
  closed_lines (firstn (s_start (label_span x)) (d_content d)) ->
  can_put unq d (ss_span (lb_name l), quote s, s) /\ can_put unq d (ss_span (lb_value l), quote s', s').
Proof.
  intros U Hi Hl Hs Hs' Hq Hq' Hw. split.
  - left. split; [apply quote_valid; apply Hs|]. split; [exact Hq|]. exists (ILabel x). split; [exact Hi|]. split; [eexists; split; [exact Hl|reflexivity]|].
    split; [|exact Hw]. left. exists (quote s). split; [apply quote_text; apply Hs|]. split; [apply quote_breaks; apply Hs|apply U].
  - right. cbn [can_do]. apply (C81_any_string unq d (ILabel x)); try assumption. eexists. split; [exact Hl|reflexivity].
Qed.

(** ** Examples *)

Definition keyed_strings : list placed_value :=
  [(Span 4 5, bs "VERSION", bs "VERSION"); (Span 6 7, bs "3.19", bs "3.19"); (Span 24 25, quote (bs "x=y"), bs "x=y"); (Span 32 37, bs "org.x", bs "org.x");
   (Span 38 39, quote odd_string, odd_string); (Span 48 49, bs "2D", bs "2D")].
Definition keyed_acts : list act :=
  [NewName (Span 4 5) (bs "VERSION") (bs "VERSION"); Step (NewValue (Span 6 7) (bs "3.19") (bs "3.19")); NewName (Span 24 25) (quote (bs "x=y")) (bs "x=y");
   NewName (Span 32 37) (bs "org.x") (bs "org.x"); Step (NewValue (Span 38 39) (quote odd_string) odd_string); NewName (Span 48 49) (bs "2D") (bs "2D");
   Step (Change (NewImage (Span 69 70) (bs "c:1") (image_parse (bs "c:1"))))].

Example C83_can : in_order 0 (length keyed) (map act_span keyed_acts) /\ fits keyed (map act_edit keyed_acts) /\
  forall a, In a keyed_acts -> can_do enquote_unquote keyed_doc a.
Proof.
  assert (L3 : closed_lines (firstn 18 keyed)).
  { exists (bs "  "). split; [repeat constructor|]. right. exists (firstn 14 keyed), [CR; LF]. split; [reflexivity|]. split; [last_line 8 (firstn 14 keyed)|].
    split; [intros r; apply no_quote_before; repeat constructor; discriminate|]. split; [constructor|]. intros (t & K). discriminate K. }
  assert (L4 : closed_lines (firstn 40 keyed)).
  { exists []. split; [constructor|]. right. exists (firstn 39 keyed), [LF]. split; [reflexivity|]. split; [apply (complete_line (firstn 16 keyed) (bs "  LABEL k=""o p"" ""l m""=n"))|].
    1: right; exists (firstn 15 keyed), LF; split; reflexivity.
    1: repeat constructor.
    1: exists 76%N; split; [right; right; left; reflexivity|reflexivity].
    1: cbn; intros H; repeat (destruct H as [H|H]; [discriminate|]); exact H.
    1: apply not_backslash; vm_compute; reflexivity.
    split; [intros r; apply closed_apart; vm_compute; reflexivity|]. split; [constructor|]. intros _ (a0 & K). apply (f_equal (fun l => last l 0%N)) in K.
    rewrite last_last in K. vm_compute in K. discriminate. }
  split; [vm_compute; lia|]. split; [vm_compute; reflexivity|]. intros a Ha. unfold keyed_acts in Ha.
  destruct Ha as [<-|[<-|[<-|[<-|[<-|[<-|[<-|[]]]]]]]].
  - split; [reflexivity|]. split; [intros r; apply closed_apart; vm_compute; reflexivity|]. eexists. split; [left; reflexivity|]. split; [reflexivity|].
    split; [split; [|reflexivity]; do 2 eexists; split; [reflexivity|]; split; [reflexivity|repeat constructor]|]. exists []. split; [constructor|left; reflexivity].
  - split; [reflexivity|]. split; [intros r; apply closed_apart; vm_compute; reflexivity|]. eexists. split; [left; reflexivity|]. split; [eexists; split; reflexivity|].
    split; [split; [right; new_word_here|itself]|]. exists []. split; [constructor|left; reflexivity].
  - split; [reflexivity|]. split; [intros r; apply closed_apart; vm_compute; reflexivity|]. eexists. split; [do 2 right; left; reflexivity|].
    split; [eexists; split; [left; reflexivity|reflexivity]|]. split; [|exact L3]. left. exists (quote (bs "x=y")).
    split; [apply quote_text; split; [reflexivity|split; intros K; vm_compute in K; repeat (destruct K as [K|K]; [discriminate K|]); exact K]|].
    split; [apply quote_breaks|vm_compute; reflexivity].
    intros u w K. assert (In LF (bs "x=y")) as H by (rewrite K; apply in_or_app; right; right; left; reflexivity).
    vm_compute in H. repeat (destruct H as [H|H]; [discriminate H|]). exact H.
  - split; [reflexivity|]. split; [intros r; apply closed_apart; vm_compute; reflexivity|]. eexists. split; [do 2 right; left; reflexivity|].
    split; [eexists; split; [right; left; reflexivity|reflexivity]|]. split; [|exact L3].
    right. split; [|split; [|split; [|split]]].
    + split; [discriminate|]. split; [|reflexivity]. repeat (constructor; [repeat split; discriminate|]). constructor.
    + do 2 eexists. split; [reflexivity|]. repeat split; discriminate.
    + intros [(t & K)|(t & K)]; discriminate K.
    + right. right. reflexivity.
    + itself.
  - eapply C81_any_string; [exact enquote_inverts|do 2 right; left; reflexivity|eexists; split; [right; left; reflexivity|reflexivity]| |intros r; apply closed_apart; vm_compute; reflexivity|exact L3].
    split; [split; [reflexivity|split; intros K; vm_compute in K; repeat (destruct K as [K|K]; [discriminate K|]); exact K]|].
    intros u w K. assert (In LF odd_string) as H by (rewrite K; apply in_or_app; right; right; left; reflexivity).
    vm_compute in H. repeat (destruct H as [H|H]; [discriminate H|]). exact H.
  - split; [reflexivity|]. split; [intros r; apply closed_apart; vm_compute; reflexivity|]. eexists. split; [do 3 right; left; reflexivity|].
    split; [eexists; split; [right; left; reflexivity|reflexivity]|]. split; [|exact L4]. split; [split; [discriminate|repeat constructor]|reflexivity].
  - cbn [can_do can_take can_make]. split.
    + split; [split; [discriminate|repeat constructor]|]. split; [apply ImageFacts.image_parse_spec; reflexivity|]. intros h K. vm_compute in K. discriminate.
    + eexists. split; [do 5 right; left; reflexivity|reflexivity].
Qed.

Definition keyed_calls : list edit :=
  [(Span 48 49, bs "2D"); (Span 32 37, bs "org.x"); (Span 6 7, bs "3.19"); (Span 69 70, bs "c:1"); (Span 38 39, quote odd_string); (Span 24 25, quote (bs "x=y"));
   (Span 4 5, bs "VERSION")].
Example C83_case : exists st, Permutation (map act_edit keyed_acts) keyed_calls /\
  splice_all (splicer_from keyed_doc) keyed_calls = Ok st /\
  sp_content st = bs "ARG VERSION=3.19" ++ [LF] ++ bs "FROM a" ++ [CR; LF] ++ bs "  LABEL ""x=y""=""o p"" org.x=""it's \""C:\\\""""" ++ [LF] ++ bs "ENV A=b 2D='d'" ++ [LF] ++
    bs "ENV P q r" ++ [LF] ++ bs "FROM c:1" /\
  parse enquote_unquote (sp_content st) = Ok (all_done keyed_acts keyed_doc).
Proof.
  eexists. split.
  { unfold keyed_calls, keyed_acts. cbn [map act_edit act_span act_text step_span step_text change_span change_text].
    apply NoDup_Permutation; [|  |].
    - repeat (constructor; [intros K; cbn [In] in K; repeat (destruct K as [K|K]; [discriminate K|]); exact K|]). constructor.
    - repeat (constructor; [intros K; cbn [In] in K; repeat (destruct K as [K|K]; [discriminate K|]); exact K|]). constructor.
    - intros e. cbn [In]. tauto. }
  split; [vm_compute; reflexivity|]. split; [vm_compute; reflexivity|]. vm_compute. reflexivity.
Qed.

(** Names and values alone: both names of the LABEL and one of its values, a variable, and
    the global ARG *)
Example C83_strings_case : exists st, splice_all (splicer_from keyed_doc) (map pv_edit keyed_strings) = Ok st /\
  (forall x, In x keyed_strings -> can_put enquote_unquote keyed_doc x) /\
  parse enquote_unquote (sp_content st) = Ok (strings_changed keyed_strings (sp_content st) keyed_doc) /\
  map (fun x => (ss_content (arg_name x), option_map ss_content (arg_value x))) (d_global_args (strings_changed keyed_strings (sp_content st) keyed_doc)) =
    [(bs "VERSION", Some (bs "3.19"))] /\
  map ss_content (names (nth 2 (d_instructions (strings_changed keyed_strings (sp_content st) keyed_doc)) nothing)) = [bs "x=y"; bs "org.x"] /\
  values (nth 2 (d_instructions (strings_changed keyed_strings (sp_content st) keyed_doc)) nothing) = [bs "o p"; odd_string].
Proof.
  eexists. split; [vm_compute; reflexivity|]. split.
  { destruct C83_can as (_ & _ & C). intros x Hx. unfold keyed_strings in Hx.
    destruct Hx as [<-|[<-|[<-|[<-|[<-|[<-|[]]]]]]]; (left; apply C; cbn [keyed_acts In]; tauto) || (right; apply C; cbn [keyed_acts In]; tauto). }
  split; [vm_compute; reflexivity|]. split; [vm_compute; reflexivity|]. split; vm_compute; reflexivity.
Qed.

Print Assumptions C83_acts.
Print Assumptions C83_others.
Print Assumptions C83_kinds.
Print Assumptions C83_strings.
Print Assumptions C83_any_label.
