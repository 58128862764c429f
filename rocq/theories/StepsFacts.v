(** Facts behind PropsSteps.v: one step, and a step further to the right. *)

From Coq Require Import String Permutation.
From Verif Require Import Bytes BytesFacts Grammar Peg Result Ast Splicer Image Convert Dockerfile Enquote
  SpecImage SpecSplice SplicerFacts SpecSyntax SpecClear SpecExact SpecMove SpecParts SpecDoc SpecReword SpecArgument SpecJoin SpecChanges SpecValues SpecSteps
  PartsFacts DocFacts ParseFacts SelectFacts PropsParse PropsDoc PropsEdit ParseEdit RewordDoc RewordFacts PropsJoin PropsBlocks ChangesFacts
  ValuesDoc PropsValues.
From Verif Require Sound Swap Forward5 ArgumentDoc.
Local Open Scope nat_scope.

(** ** Where things are after a step *)

Lemma with_places sp v i : quotable_places (with_value sp v i) = quotable_places i.
Proof.
  assert (S : forall s, ss_span (put_string sp v s) = ss_span s).
  { intros s. unfold put_string. destruct (span_eq_dec (ss_span s) sp); [symmetry; assumption|reflexivity]. }
  assert (B : forall s, br_span (put_value sp v s) = br_span s).
  { intros s. unfold put_value. destruct (span_eq_dec (br_span s) sp); [symmetry; assumption|reflexivity]. }
  assert (C : forall e, command_places (put_command sp v e) = command_places e).
  { intros [e|a]; [reflexivity|]. cbn [put_command command_places sa_elements]. unfold string_places. rewrite map_map. apply map_ext. exact S. }
  destruct i as [x|x|x|x|x|x|x|x|x]; cbn [with_value quotable_places]; try reflexivity; try apply C.
  - cbn [arg_name arg_value]. f_equal. destruct (arg_value x) as [s|]; [|reflexivity]. cbn [option_map option_places]. rewrite S. reflexivity.
  - cbn [label_labels]. induction (label_labels x) as [|l ls IH]; [reflexivity|]. cbn [map flat_map]. rewrite IH. unfold put_label. cbn [lb_name lb_value]. rewrite S. reflexivity.
  - cbn [env_vars]. induction (env_vars x) as [|l ls IH]; [reflexivity|]. cbn [map flat_map]. rewrite IH. unfold put_env. cbn [ev_key ev_value]. rewrite B. reflexivity.
Qed.

Lemma with_span sp v i : instruction_span (with_value sp v i) = instruction_span i.
Proof. destruct i; reflexivity. Qed.

Lemma step_places s i : quotable_places (step_instruction s i) = map (move_span (step_offset s)) (quotable_places i).
Proof.
  destruct s as [c|sp t v]; cbn [step_instruction]; [apply changed_places|]. rewrite places_moved, with_places. reflexivity.
Qed.
Lemma step_placed s i : instruction_span (step_instruction s i) = move_span (step_offset s) (instruction_span i).
Proof.
  destruct s as [c|sp t v]; cbn [step_instruction]; [apply changed_span|]. transitivity (move_span (step_offset (NewValue sp t v)) (instruction_span (with_value sp v i))).
  - destruct (with_value sp v i); reflexivity.
  - rewrite with_span. reflexivity.
Qed.

(** The places of values *)
Lemma place_moved g i sp : value_place i sp -> value_place (move_instruction g i) (move_span g sp).
Proof.
  assert (C : forall e, element_place e sp -> element_place (move_command g e) (move_span g sp)).
  { intros [e|a]; [intros []|]. intros (s & Hs & <-). exists (move_string g s). split; [apply in_map; exact Hs|reflexivity]. }
  destruct i as [x|x|x|x|x|x|x|x|x]; cbn [value_place move_instruction]; intros H; try contradiction; try (apply C; exact H); destruct H as (s & Hs & <-).
  - exists (move_string g s). cbn [move_arg arg_value]. rewrite Hs. split; reflexivity.
  - eexists. split; [apply in_map; exact Hs|reflexivity].
  - eexists. split; [apply in_map; exact Hs|reflexivity].
Qed.
Lemma place_reworded a b t i sp : value_place i sp -> value_place (reword_instruction a b t i) (move_span (replacement a b (length t)) sp).
Proof.
  assert (C : forall e, element_place e sp -> element_place (reword_command a b t e) (move_span (replacement a b (length t)) sp)).
  { intros [e|l]; [intros []|]. intros (s & Hs & <-). exists (reword_string a b t s). split; [apply in_map; exact Hs|reflexivity]. }
  destruct i as [x|x|x|x|x|x|x|x|x]; cbn [value_place reword_instruction]; intros H; try contradiction; try (apply C; exact H); destruct H as (s & Hs & <-).
  - exists (reword_string a b t s). cbn [reword_arg arg_value]. rewrite Hs. split; reflexivity.
  - eexists. split; [apply in_map; exact Hs|reflexivity].
  - eexists. split; [apply in_map; exact Hs|reflexivity].
Qed.
Lemma place_with sp0 v i sp : value_place i sp -> value_place (with_value sp0 v i) sp.
Proof.
  assert (S : forall s, ss_span (put_string sp0 v s) = ss_span s).
  { intros s. unfold put_string. destruct (span_eq_dec (ss_span s) sp0); [symmetry; assumption|reflexivity]. }
  assert (B : forall s, br_span (put_value sp0 v s) = br_span s).
  { intros s. unfold put_value. destruct (span_eq_dec (br_span s) sp0); [symmetry; assumption|reflexivity]. }
  assert (C : forall e, element_place e sp -> element_place (put_command sp0 v e) sp).
  { intros [e|a]; [intros []|]. intros (s & Hs & <-). exists (put_string sp0 v s). split; [apply in_map; exact Hs|apply S]. }
  destruct i as [x|x|x|x|x|x|x|x|x]; cbn [value_place with_value]; intros H; try contradiction; try (apply C; exact H); destruct H as (s & Hs & <-).
  - exists (put_string sp0 v s). cbn [arg_value]. rewrite Hs. split; [reflexivity|apply S].
  - eexists. split; [apply in_map; exact Hs|apply S].
  - eexists. split; [apply in_map; exact Hs|apply B].
Qed.

Lemma step_place s i sp : value_place i sp -> value_place (step_instruction s i) (move_span (step_offset s) sp).
Proof.
  intros H. destruct s as [c|sp0 t v]; cbn [step_instruction].
  - destruct (changed_cases c i) as [->|[(f & f' & -> & _)|(sp0 & t & Ec & ->)]]; [apply place_moved; exact H|destruct H|].
    replace (step_offset (Change c)) with (replacement (s_start sp0) (s_end sp0) (length t)) by (destruct Ec as [-> | ->]; reflexivity).
    apply place_reworded. exact H.
  - apply place_moved, place_with. exact H.
Qed.

Lemma step_text_kind unq before s i t v : value_text unq before i t v -> value_text unq before (step_instruction s i) t v.
Proof. destruct s as [[ | | | ]|]; destruct i; intros H; exact H || (destruct H; fail). Qed.

(** ** One step *)

Section One.
Variable unq : bytes -> option bytes.
Variables (W : bytes) (d : dockerfile).
Hypothesis V : valid_utf8 W = true.
Hypothesis E : parse unq W = Ok d.

Lemma content_is : d_content d = W.
Proof. exact (parse_content _ _ _ E). Qed.

Ltac kw_head := rewrite <- ?app_assoc; eapply Forward5.keyword_head; [eassumption|discriminate|repeat constructor].

Lemma at_letter p w i : instruction_at unq p w i -> match w with x :: _ => is_alpha x = true | [] => False end.
Proof.
  intros H. rewrite <- (app_nil_r w). destruct i as [x|x|x|x|x|x|x|x|x]; cbn [instruction_at] in H.
  - destruct H as (kw & fl & k & g & img & al & -> & Hkw & _). kw_head.
  - destruct H as (kw & k & g & name & rest & -> & Hkw & _). kw_head.
  - destruct H as (kw & r & -> & Hkw & _). kw_head.
  - destruct H as (kw & r & cmd & -> & Hkw & _). kw_head.
  - destruct H as (kw & r & cmd & -> & Hkw & _). kw_head.
  - destruct H as (kw & r & cmd & -> & Hkw & _). kw_head.
  - destruct H as (kw & fl & paths & -> & Hkw & _). kw_head.
  - destruct H as (kw & r & -> & Hkw & _). kw_head.
  - destruct H as (name & args & -> & [Hn Ha] & _). destruct name as [|c name]; [congruence|]. inversion Ha. assumption.
Qed.

Lemma start_letter i : In i (d_instructions d) -> exists c r, skipn (s_start (instruction_span i)) W = c :: r /\ is_alpha c = true.
Proof.
  intros Hi. destruct (parsed_instruction unq W d V E _ Hi) as (p & w & (pre & post & Ew & Ep & _) & K).
  pose proof (at_letter _ _ _ K) as Hl. destruct (instruction_valid _ _ _ _ K) as (_ & Hw & Es). rewrite Es. unfold at_. cbn [s_start].
  destruct w as [|c w]; [congruence|]. exists c, (w ++ post). rewrite Ew, Ep, skipn_app, skipn_all, Nat.sub_diag. split; [reflexivity|exact Hl].
Qed.

Lemma closed_before i : In i (d_instructions d) -> closed_lines (firstn (s_start (instruction_span i)) W) ->
  lines_before (firstn (s_start (instruction_span i)) W) (skipn (s_start (instruction_span i)) W).
Proof.
  intros Hi (b & Hb & H). exists b. split; [exact Hb|]. destruct H as [H|(a & n & Ea & Ca & Qa & Hn & Hc)]; [left; exact H|]. right. exists a, n.
  split; [exact Ea|]. split; [exact Ca|]. split; [apply Qa|]. split; [exact Hn|]. split; [|exact Hc].
  intros _ (y & K). destruct (start_letter i Hi) as (c & r & Er & Hr). rewrite Er in K. destruct b as [|b0 b]; cbn [app] in K; injection K as -> _.
  - discriminate Hr.
  - inversion Hb. discriminate.
Qed.

Lemma step_bounds s : can_take unq d s -> s_start (step_span s) < s_end (step_span s) /\ s_end (step_span s) <= length W /\
  on_boundaries W (step_span s) /\ valid_utf8 (step_text s) = true.
Proof.
  destruct s as [c|sp t v]; cbn [can_take step_span step_text].
  - intros H. destruct (change_step unq W d V E c H) as ((H1 & H2 & H3 & _ & H4) & _). auto.
  - intros (Vt & _ & i & Hi & Hp & _). destruct (place_bounded unq W d V E i sp Hi (value_places _ _ Hp)) as (L1 & L2 & B). auto.
Qed.

Lemma spliced_valid sp t : s_start sp < s_end sp -> s_end sp <= length W -> on_boundaries W sp -> valid_utf8 t = true ->
  valid_utf8 (firstn (s_start sp) W ++ t ++ skipn (s_end sp) W) = true.
Proof.
  intros L1 L2 [B1 B2] Vt. apply valid_boundary in B1; [|exact V|lia]. apply valid_boundary in B2; [|exact V|lia].
  rewrite valid_utf8_app by apply B1. rewrite valid_utf8_app by exact Vt. apply B2.
Qed.

Theorem value_step sp t v : can_take unq d (NewValue sp t v) ->
  let W' := firstn (s_start sp) W ++ t ++ skipn (s_end sp) W in
  valid_utf8 W' = true /\ parse unq W' = Ok (value_changed sp t v W' d).
Proof.
  intros Hc. pose proof (step_bounds _ Hc) as (L1 & L2 & Bd & Vt). cbn [step_span step_text] in *. destruct Hc as (_ & Hq & i & Hi & Hp & Hv & Hl).
  rewrite content_is in *. cbv zeta. pose proof (spliced_valid sp t L1 L2 Bd Vt) as Eu. split; [exact Eu|]. pose proof (value_places _ _ Hp) as Hpl.
  set (A := firstn (s_start sp) W) in *. set (B := skipn (s_end sp) W) in *.
  destruct (value_replaced unq W d i sp t v A B V E Hi Hp eq_refl eq_refl Hv (Hq _) (closed_before i Hi Hl)) as (_ & _ & K).
  destruct (K Eu) as (l1 & l2 & d' & El & E' & Ec' & El').
  rewrite E'. f_equal. set (g := replacement (s_start sp) (s_end sp) (length t)) in *.
  assert (Away : forall j, In j (l1 ++ l2) -> with_value sp v j = j).
  { intros j Hj. apply with_value_away. exact (places_apart unq W d l1 i l2 sp j V E El Hpl Hj). }
  assert (Ei : d_instructions d' = map (fun j => move_instruction g (with_value sp v j)) (d_instructions d)).
  { rewrite El', El, map_app. cbn [map]. f_equal; [|f_equal]; apply map_ext_in; intros j Hj; rewrite Away; auto using in_or_app. }
  destruct (parse_global_args _ _ _ E) as (pre & Hpre & Ea). destruct (parse_global_args _ _ _ E') as (pre2 & Hpre2 & Ea2).
  rewrite Ei in Hpre2. apply (before_map (fun j => move_instruction g (with_value sp v j))) in Hpre; [|intros j; destruct j; reflexivity].
  pose proof (before_first_from_fun _ _ _ Hpre Hpre2) as Ep. rewrite <- Ep, args_with, <- Ea in Ea2.
  unfold value_changed. cbv zeta. fold g. rewrite <- Ei, <- Ea2, <- Ec'. destruct d'; reflexivity.
Qed.

Theorem one_step s : can_take unq d s ->
  valid_utf8 (step_content s W) = true /\ parse unq (step_content s W) = Ok (taken s d) /\
  d_content (taken s d) = step_content s W /\ d_instructions (taken s d) = map (step_instruction s) (d_instructions d).
Proof.
  intros H. destruct s as [c|sp t v]; cbn [taken].
  - destruct (change_step unq W d V E c H) as (_ & H1 & H2). split; [exact H1|]. split; [exact H2|]. split; [|reflexivity].
    cbn [changed d_content]. rewrite content_is. reflexivity.
  - destruct (value_step sp t v H) as [H1 H2]. rewrite content_is. split; [exact H1|]. split; [exact H2|]. split; reflexivity.
Qed.

(** ** A step further to the right *)

Lemma own_instruction i j : In i (d_instructions d) -> In j (d_instructions d) -> instruction_span i = instruction_span j -> i = j.
Proof.
  intros Hi Hj Es. destruct (in_split _ _ Hi) as (l1 & l2 & El). pose proof (C06_instructions_in_order unq W d V E) as Oi. rewrite El in Hj, Oi.
  pose proof (in_order_bounds _ _ _ _ (C06_instructions_in_order unq W d V E) (in_map instruction_span _ _ Hi)) as (_ & Ln & _).
  apply in_app_or in Hj. destruct Hj as [Hj|[Hj|Hj]]; [exfalso|congruence|exfalso].
  + rewrite map_app in Oi. apply SplicerFacts.in_order_app in Oi. destruct Oi as [_ Oi].
    specialize (Oi _ (or_introl eq_refl) _ (in_map _ _ _ Hj)). rewrite Es in Oi, Ln. lia.
  + replace (l1 ++ i :: l2) with ((l1 ++ [i]) ++ l2) in Oi by (rewrite <- app_assoc; reflexivity).
    rewrite map_app in Oi. apply SplicerFacts.in_order_app in Oi. destruct Oi as [_ Oi].
    specialize (Oi _ (in_map _ _ _ Hj) (instruction_span i) ltac:(apply in_map, in_or_app; right; left; reflexivity)). rewrite Es in Oi, Ln. lia.
Qed.

Lemma place_inside i sp : In i (d_instructions d) -> In sp (quotable_places i) -> inside sp (instruction_span i).
Proof.
  intros Hi Hp. assert (Or : ordered (instruction_part i)) by (intros z Hz; apply (C05_parts_in_order unq _ d i z V E Hi Hz)).
  destruct (selection_in _ _ sp (places_selected [i])) as (j & x & Hj & Hx & Ex); [cbn [flat_map]; rewrite app_nil_r; exact Hp|].
  destruct Hj as [<-|[]]. pose proof (within_inside _ Or x Hx) as I1. cbn [instruction_part part_span] in I1. rewrite <- Ex in I1. exact I1.
Qed.

Lemma value_kept sp t v s' : can_take unq d (NewValue sp t v) -> can_take unq d s' -> s_end sp <= s_start (step_span s') ->
  can_take unq (taken s' d) (NewValue sp t v).
Proof.
  intros H H' Lc. pose proof (step_bounds _ H) as (A1 & A2 & _). pose proof (step_bounds _ H') as (B1 & B2 & _). cbn [step_span] in A1, A2.
  destruct (one_step s' H') as (_ & _ & Ec & Ei). destruct H as (Vt & Hq & i & Hi & Hp & Hv & Hl). rewrite content_is in *.
  pose proof (place_inside i sp Hi (value_places _ _ Hp)) as [I1 I2].
  assert (F : forall k, k <= s_start (step_span s') -> firstn k (step_content s' W) = firstn k W) by (intros k Hk; apply text_front; lia).
  cbn [can_take]. rewrite Ec, Ei, F by lia. split; [exact Vt|]. split; [exact Hq|]. exists (step_instruction s' i). split; [apply in_map; exact Hi|].
  split; [|split].
  - replace sp with (move_span (step_offset s') sp) by (apply span_below; lia). apply step_place. exact Hp.
  - apply step_text_kind. exact Hv.
  - rewrite step_placed. unfold move_span, step_offset. cbn [s_start]. rewrite (offset_below _ _ _ B1) by lia. rewrite F by lia. exact Hl.
Qed.

Lemma loose_moved g sp v i : loose_instruction i -> loose_instruction (move_instruction g (with_value sp v i)).
Proof. destruct i; exact (fun H => H). Qed.

Lemma letter_plain c : is_alpha c = true -> plain_byte c = true.
Proof.
  intros H. destruct (plain_byte c) eqn:K; [reflexivity|]. exfalso. unfold plain_byte in K. apply negb_false_iff in K. rewrite !orb_true_iff, !N.eqb_eq in K.
  destruct K as [[[[[[K|K]|K]|K]|K]|K]|K]; try (subst c; discriminate H); destruct (ArgumentDoc.break_not_letter c); [|congruence| |congruence];
    unfold Swap.is_break; rewrite K; [reflexivity|apply orb_true_r].
Qed.

Lemma change_kept_value c sp t v : can_make d c -> can_take unq d (NewValue sp t v) -> s_end (change_span c) <= s_start sp ->
  can_make (taken (NewValue sp t v) d) c.
Proof.
  intros H H' Lc. pose proof (change_step unq W d V E c H) as ((A1 & A2 & _ & A4 & _) & _). pose proof (step_bounds _ H') as (B1 & B2 & _). cbn [step_span] in B1, B2.
  destruct (one_step _ H') as (_ & _ & Ec & Ei). set (s' := NewValue sp t v) in *. set (lo := s_start sp) in *. set (hi := s_end sp) in *.
  assert (Below : move_span (step_offset s') (change_span c) = change_span c) by (apply span_below; cbn; fold lo hi; lia).
  assert (Quotes : forall i, not_in_quotes W (change_span c) i -> not_in_quotes (step_content s' W) (change_span c) (step_instruction s' i)).
  { intros i HQ y Hy Hr Hq. rewrite step_places in Hy. apply in_map_iff in Hy. destruct Hy as (y0 & <- & Hy).
    destruct (around_moved _ _ _ B1 _ _ _ A1 Lc Hr) as [Hr0 Ls]. apply (HQ y0 Hy Hr0).
    eapply quoted_moved; [exact B1| |exact Ls|exact Hq]. lia. }
  assert (Ll : lo <= length W) by lia.
  assert (Front : forall k, k <= lo -> firstn k (step_content s' W) = firstn k W) by (intros k Hk; apply text_front; assumption).
  assert (Same : forall x, s_end x <= lo -> text_at (step_content s' W) x = text_at W x) by (intros x Hx; apply text_same; assumption).
  destruct c as [sp0 t0 r|sp0 t0|sp0 t0|sp0 t0]; cbn [can_make change_span] in *; rewrite ?Ec, ?Ei, ?content_is in *.
  - destruct H as (Ht & f & Hi & Es). split; [exact Ht|]. exists (move_from (step_offset s') f). split.
    + apply (in_map (step_instruction s')) in Hi. exact Hi.
    + cbn [move_from from_image move_string ss_span]. rewrite Es. exact Below.
  - destruct H as (Ht & f & al & Hi & Hal & Es). split; [exact Ht|]. exists (move_from (step_offset s') f), (move_string (step_offset s') al). split; [|split].
    + apply (in_map (step_instruction s')) in Hi. exact Hi.
    + cbn [move_from from_alias]. rewrite Hal. reflexivity.
    + cbn [move_string ss_span]. rewrite Es. exact Below.
  - destruct H as (HY & HX & L2 & (a & Ha) & HQ). split; [exact HY|]. rewrite Same by assumption.
    split; [exact HX|]. split; [unfold step_content; rewrite app_length, firstn_length; cbn [s' step_span]; fold lo; lia|].
    split; [exists a; rewrite Front by lia; exact Ha|].
    intros i Hi. apply in_map_iff in Hi. destruct Hi as (i0 & <- & Hi). apply Quotes, HQ, Hi.
  - destruct H as (HY & HX & Hb & Ha & i & Hi & Hl & L1 & L2 & HQ). split; [exact HY|]. rewrite Same by assumption.
    split; [exact HX|]. split; [rewrite Front by lia; exact Hb|]. split.
    + destruct (Nat.eq_dec (s_end sp0) lo) as [El|Nl].
      * destruct H' as (_ & _ & j & Hj & Hp & Hv & _). pose proof (place_inside j sp Hj (value_places _ _ Hp)) as [I1 I2]. fold lo hi in I1, I2.
        assert (i = j) as <-.
        { destruct (in_order_disjoint _ _ _ _ _ (C06_instructions_in_order unq W d V E) (in_map instruction_span _ _ Hi) (in_map instruction_span _ _ Hj)) as [Es|D].
          - exact (own_instruction i j Hi Hj Es).
          - exfalso. unfold disjoint in D. destruct D as [D|D]; [|lia]. assert (s_start (instruction_span j) = lo) as Ej by lia.
            destruct (start_letter j Hj) as (c & r & Er & Hr). rewrite Ej, <- El in Er. rewrite Er in Ha. cbn [word_after] in Ha.
            rewrite (letter_plain c Hr) in Ha. discriminate. }
        assert (Ht : element_text unq t v) by (destruct i; try (destruct Hp; fail); try (destruct Hl; fail); exact Hv).
        destruct Ht as [(q & body & Hq & -> & _) _]. rewrite El. unfold step_content. cbn [s' step_span step_text]. fold lo hi.
        rewrite skipn_app, firstn_length, Nat.min_l, Nat.sub_diag, skipn_all2 by (try rewrite firstn_length; lia). cbn [skipn app word_after].
        destruct Hq as [-> | ->]; reflexivity.
      * pose proof (text_nth W t lo hi Ll (s_end sp0) ltac:(lia)) as K. rewrite !nth_skipn in K.
        unfold step_content. cbn [s' step_span step_text]. fold lo hi.
        destruct (skipn (s_end sp0) (firstn lo W ++ t ++ skipn hi W)) as [|x w]; [exact I|].
        destruct (skipn (s_end sp0) W) as [|x' w']; [discriminate|]. cbn [hd_error] in K. injection K as <-. exact Ha.
    + exists (step_instruction s' i). split; [apply in_map; exact Hi|]. rewrite step_placed.
      assert (O1 : s_start (instruction_span i) <= lo) by lia. split; [|split; [|split]].
      * apply loose_moved. exact Hl.
      * unfold move_span, step_offset. cbn [s_start]. rewrite (offset_below _ _ _ B1) by exact O1. exact L1.
      * unfold move_span, step_offset. cbn [s_end s' step_span step_text]. fold lo hi.
        destruct (Nat.le_gt_cases (s_end (instruction_span i)) lo) as [K|K]; [rewrite (offset_below _ _ _ B1) by exact K; exact L2|].
        pose proof (offset_above lo hi (length t) B1 _ K). lia.
      * apply Quotes, HQ.
Qed.

Theorem step_kept s s' : can_take unq d s -> can_take unq d s' -> s_end (step_span s) <= s_start (step_span s') -> can_take unq (taken s' d) s.
Proof.
  intros H H' L. destruct s as [c|sp t v].
  - destruct s' as [c'|sp t v]; [apply (change_kept unq W d V E c c'); assumption|]. apply change_kept_value; assumption.
  - apply value_kept; assumption.
Qed.
End One.

(** ** Any number of steps *)

Theorem steps_taken unq W d : valid_utf8 W = true -> parse unq W = Ok d -> forall ss b, in_order b (length W) (map step_span ss) -> b <= length W ->
  (forall s, In s ss -> can_take unq d s) ->
  valid_utf8 (d_content (all_taken ss d)) = true /\ parse unq (d_content (all_taken ss d)) = Ok (all_taken ss d) /\
  d_content (all_taken ss d) = firstn b W ++ replaced W b (map step_edit ss) /\
  forall s, can_take unq d s -> s_end (step_span s) <= b -> can_take unq (all_taken ss d) s.
Proof.
  intros V E ss. induction ss as [|c1 ss IH]; intros b Ho Hb Hc; cbn [all_taken fold_right map replaced].
  - rewrite (parse_content _ _ _ E). split; [exact V|]. split; [exact E|]. split; [symmetry; apply firstn_skipn|]. auto.
  - cbn [map in_order] in Ho. destruct Ho as (L1 & L2 & L3 & Ho). destruct (IH _ Ho L3) as (V' & E' & T' & K'); [intros c H; apply Hc; right; exact H|].
    fold (all_taken ss d). set (D := all_taken ss d) in *. pose proof (Hc c1 (or_introl eq_refl)) as H1. pose proof (K' c1 H1 (le_n _)) as H1'.
    destruct (one_step unq _ D V' E' c1 H1') as (V2 & E2 & Ec & _). rewrite Ec. split; [exact V2|]. split; [exact E2|]. split.
    + unfold step_content. rewrite T'. cbn [step_edit].
      set (a := s_start (step_span c1)) in *. set (e := s_end (step_span c1)) in *.
      rewrite firstn_app, firstn_firstn, firstn_length, Nat.min_l, Nat.min_l by lia. replace (a - e) with 0 by lia. rewrite firstn_O, app_nil_r.
      rewrite skipn_app, firstn_length, (Nat.min_l e) by lia. rewrite skipn_all2 by (rewrite firstn_length; lia). rewrite Nat.sub_diag. cbn [skipn app].
      rewrite (app_assoc (firstn b W)). f_equal. unfold slice. rewrite firstn_skipn_comm. replace (b + (a - b)) with a by lia.
      rewrite <- (firstn_skipn b (firstn a W)) at 1. rewrite firstn_firstn, Nat.min_l by lia. reflexivity.
    + intros c Hc0 Lc. apply (step_kept unq _ D V' E' c c1); [apply K'; [exact Hc0|lia]|exact H1'|lia].
Qed.
