(** Parsing a document in which a word of a loose instruction was replaced by another. *)

From Coq Require Import String.
From Verif Require Import Bytes BytesFacts Grammar Peg PegFacts Result Ast Splicer Image Convert Dockerfile SpecImage SpecSyntax SpecParts
  SpecSplice SplicerFacts SpecMove SpecReword SpecArgument SpecClear SpecExact PegRules PegTokens Sound SoundDoc Shift ConvertMove Once ConvertSame Spelt Oracle ParseFacts
  SwapParse SwapDoc DocFacts SelectFacts PropsParse PropsDoc ConvertReword RewordDoc RewordFacts Forward5 Exact9 Local.
From Verif Require Forward3 Swap EqSwap WordSwap.
Local Open Scope nat_scope.

(** ** Where an instruction is in the text *)

Lemma document_place input q f t : run ctx0 (Call R_dockerfile) 0 input = Done q [] [Node R_dockerfile 0 q f] -> In t f ->
  t_rule t <> R_comment -> t_rule t <> R_EOI ->
  exists P U w s q1 s2, input = P ++ s /\ P = U ++ w /\ blanks w /\
    (U = [] \/ exists U0 n, U = U0 ++ [n] /\ is_newline_byte n = true) /\
    run ctx0 (Call R_step) (length P) s = Done q1 s2 [t].
Proof.
  intros R Ht Hr He. apply call_inv in R. destruct R as (f' & R & Ef).
  cbn [grammar fst snd rule_inner rule_tokens wrap emits ctx0 look atom] in Ef. injection Ef as <-.
  cbn [grammar fst snd rule_inner] in R. change (rule_outer Normal ctx0) with ctx0 in R.
  apply seq_inv in R; [|reflexivity]. destruct R as (q0 & s0 & f0 & f1 & R0 & R & ->).
  rewrite run_soi in R0. cbn [Nat.eqb] in R0. injection R0 as <- <- <-. cbn [app] in Ht.
  apply seq_inv in R; [|reflexivity]. destruct R as (q1 & s1 & f2 & f3 & R1 & R & ->).
  apply seq_inv in R; [|reflexivity]. destruct R as (q2 & s2 & f4 & f5 & R2 & R3 & ->).
  assert (s2 = []) as ->.
  { apply call_inv in R3. destruct R3 as (fe & R3 & _). cbn [grammar fst snd] in R3. rewrite run_eoi in R3.
    destruct s2; [reflexivity|discriminate]. }
  assert (Ht5 : ~ In t f5).
  { intros K. apply token_inv in R3; [|discriminate]. destruct R3 as (l & _ & ->). destruct K as [<-|[]]. apply He. reflexivity. }
  apply in_app_or in Ht. destruct Ht as [Ht|Ht]; [|apply in_app_or in Ht; destruct Ht as [Ht|Ht]; [|contradiction]].
  - destruct (meta_any _ _ _ _ _ _ R1 Ht Hr) as (b & s3 & q3 & b2 & -> & Hb & RF & Hb2). cbn [Nat.add] in RF.
    exists b, [], b, s3, q3, (b2 ++ s1). repeat (split; [first [reflexivity|exact Hb|left; reflexivity]|]). exact RF.
  - destruct (lines_any t _ _ _ _ R2 Ht) as (u & n & s3 & q3 & s4 & f6 & -> & Hn & RM & Hin & Hs).
    destruct (meta_any _ _ _ _ _ _ RM Hin Hr) as (b & s5 & q5 & b2 & -> & Hb & RF & Hb2).
    destruct (run_consumes _ _ _ _ _ _ _ R1) as (w1 & -> & ->). cbn [Nat.add] in *.
    exists (w1 ++ u ++ n ++ b), (w1 ++ u ++ n), b, s5, q5, (b2 ++ s4).
    split; [rewrite <- !app_assoc; reflexivity|]. split; [rewrite <- !app_assoc; reflexivity|]. split; [exact Hb|]. split.
    { right. destruct Hn; [exists (w1 ++ u), LF|exists (w1 ++ u ++ [CR]), LF|exists (w1 ++ u), CR]; (split; [rewrite <- !app_assoc; reflexivity|reflexivity]). }
    rewrite !app_length, !Nat.add_assoc. exact RF.
Qed.

Lemma step_node p s q s' t : run ctx0 (Call R_step) p s = Done q s' [t] -> t_start t = p /\ t_stop t = q.
Proof.
  intros RF. apply call_inv in RF. destruct RF as (f1 & RF & K). cbn [grammar fst snd rule_inner rule_tokens] in *. subst f1.
  do 8 (apply alt_inv in RF; [|reflexivity]; destruct RF as [RF|[_ RF]];
    [apply token_inv in RF; [|discriminate]; destruct RF as (l & _ & K); injection K as ->; auto|]).
  apply token_inv in RF; [|discriminate]; destruct RF as (l & _ & K); injection K as ->; auto.
Qed.

Lemma instruction_token unq input d i : parse unq input = Ok d -> In i (d_instructions d) ->
  exists q f t P U w s s2, run ctx0 (Call R_dockerfile) 0 input = Done q [] [Node R_dockerfile 0 q f] /\ In t f /\ t_rule t <> R_EOI /\
    input = P ++ s /\ P = U ++ w /\ blanks w /\ (U = [] \/ exists U0 n, U = U0 ++ [n] /\ is_newline_byte n = true) /\
    run ctx0 (Opt (Alt (Call R_step) comment)) (length P) s = Done (s_end (instruction_span i)) s2 [t] /\
    t_start t = length P /\ length P = s_start (instruction_span i).
Proof.
  intros H Hi. unfold parse in H. rewrite pest_parse_run in H.
  destruct (run ctx0 (Call R_dockerfile) 0 input) as [q s' fs| |] eqn:R; try discriminate.
  pose proof (document_all _ _ _ _ R) as ->.
  pose proof R as R0. apply call_inv in R0. destruct R0 as (f' & _ & Ef).
  cbn [grammar fst snd rule_inner rule_tokens wrap emits ctx0 look atom] in Ef. subst fs.
  change (wrap (rule_outer Normal ctx0) R_dockerfile 0 q f') with [Node R_dockerfile 0 q f'] in *. cbn [t_children] in H.
  destruct (for_each (doc_step unq input) f' (DocState [] [] false 0)) as [st|e| |] eqn:Est; try discriminate.
  cbn [bind] in H. injection H as <-. cbn [d_instructions] in *.
  apply in_split in Hi. destruct Hi as (l1 & l2 & El).
  destruct (doc_steps_find _ _ _ _ _ l1 i l2 Est El) as (fa & t & fb & sta & stb & -> & _ & _ & E3 & E4 & _).
  destruct (doc_step_token _ _ _ _ _ _ E3 E4) as (Hr1 & Hr2 & j & n & Ej & En).
  assert (Hin : In t (fa ++ t :: fb)) by (apply in_or_app; right; left; reflexivity).
  destruct (document_place _ _ _ _ R Hin Hr1 Hr2) as (P & U & w & s & q1 & s2 & E & EP & Hw & HU & RF).
  assert (Es : instruction_span i = instruction_span j). { destruct j; cbn [numbered] in En; injection En as <-; reflexivity. }
  destruct (step_node _ _ _ _ _ RF) as [S1 S2].
  rewrite Es, (instruction_spans _ _ _ _ Ej). cbn [span_of s_start s_end]. unfold span_of. cbn [s_start s_end]. rewrite S1, S2.
  exists q, (fa ++ t :: fb), t, P, U, w, s, s2. repeat (split; [first [reflexivity|assumption]|]).
  split; [|split; [exact S1|reflexivity]].
  rewrite run_opt by reflexivity. rewrite run_alt by reflexivity. rewrite RF. reflexivity.
Qed.

(** ** The name of a loose instruction *)

Lemma to_lower_app a b : to_lower (a ++ b) = to_lower a ++ to_lower b.
Proof. apply map_app. Qed.

Lemma not_sought (name k r : bytes) : letters name -> (match r with c :: _ => is_alpha c = false | [] => True end) ->
  Forall (fun c => is_alpha c = true) k -> to_lower k = k -> firstn (length k) (to_lower name) <> k -> match_insens k (name ++ r) = None.
Proof.
  intros [_ Hl] Hr Hk Hlow Hn. destruct (match_insens k (name ++ r)) as [s|] eqn:E; [|reflexivity]. exfalso. apply Hn.
  apply match_insens_app in E. destruct E as (v & E & Ev).
  assert (Hv : Forall (fun c => is_alpha c = true) v).
  { rewrite Hlow in Ev. rewrite <- Ev in Hk. unfold to_lower in Hk. rewrite Forall_map in Hk. revert Hk. apply Forall_impl. intros c. rewrite Forward3.lower_is_alpha. auto. }
  apply app_eq_app in E. destruct E as (l & [[-> E]|[-> E]]).
  - rewrite to_lower_app, Ev, Hlow. rewrite firstn_app, Nat.sub_diag, firstn_O, app_nil_r. apply firstn_all.
  - destruct l as [|c l].
    + rewrite app_nil_r in *. rewrite Ev, Hlow. apply firstn_all.
    + exfalso. rewrite E in Hr. cbn [app] in Hr. apply Forall_app in Hv. destruct Hv as [_ Hv]. apply Forall_inv in Hv. congruence.
Qed.

Lemma breakable_nonempty p w x : breakable_at p w x -> w <> [].
Proof.
  intros (l & H & _). destruct H as [p w H _|p w c w2 l H _ _ _|p b t _ (t' & -> & _)|p b t n _ (t' & -> & _) _|p b t n w l _ (t' & -> & _) _ _].
  - apply H.
  - destruct H as [H _]. destruct w; [congruence|discriminate].
  - destruct b; discriminate.
  - destruct b; discriminate.
  - destruct b; discriminate.
Qed.

Lemma loose_name unq input d i : valid_utf8 input = true -> parse unq input = Ok d -> In i (d_instructions d) -> loose_instruction i ->
  exists pre name rest, input = pre ++ name ++ rest /\ s_start (instruction_span i) = length pre /\ letters name /\ no_letter rest /\
    Forall (fun k => firstn (length k) (to_lower name) <> k) WordSwap.barred_words.
Proof.
  intros V H Hi Hl. destruct (parsed_variant unq input d i V H Hi) as (pre & name & rest & E & Es & Hn & Hr & Hk & _).
  exists pre, name, rest. repeat (split; [assumption|]).
  destruct i as [x|x|x|x|x|x|x|x|x]; cbn [loose_instruction] in Hl; try contradiction;
    try (match type of Hk with context [keyword_of ?j = Some _] => destruct (keyword_of j) as [k|] eqn:Ek; [|discriminate] end;
         specialize (Hk k eq_refl); cbn [keyword_of] in Ek; injection Ek as <-; unfold keyword in Hk; rewrite Hk; repeat constructor; discriminate).
  assert (En : ss_content (misc_name x) = name).
  { destruct (parsed_instruction unq input d V H _ Hi) as (p & w & Hp & K). cbn [instruction_at] in K.
    destruct K as (name' & args & -> & Hn' & Ha & -> & Hb & Esp). pose proof (breakable_nonempty _ _ _ Hb) as Hne. cbn [ss_content].
    cbn [instruction_span] in Es. rewrite Esp in Es. cbn [at_ s_start] in Es.
    destruct Hp as (pre' & post & Ei & Lp & _). rewrite Ei in E. rewrite Es in Lp.
    assert (Ep : pre' = pre).
    { apply (f_equal (firstn (length pre))) in E. rewrite !firstn_app, <- Lp, Nat.sub_diag, !firstn_O, !app_nil_r, firstn_all in E.
      rewrite Lp, firstn_all in E. exact E. }
    subst pre'. apply app_inv_head in E. rewrite <- app_assoc in E.
    assert (Ha' : no_letter (args ++ post)) by (destruct args; [congruence|exact Ha]).
    apply (f_equal (take_while is_alpha)) in E.
    destruct (take_while_app is_alpha name' (args ++ post) (proj2 Hn') Ha') as [E1 _].
    destruct (take_while_app is_alpha name rest (proj2 Hn) Hr) as [E2 _]. congruence. }
  rewrite En in Hl. change WordSwap.barred_words with (map bs sought_words). apply Forall_map. exact Hl.
Qed.

(** ** The theorem *)

Lemma word_break a : word_before a -> exists u z, a = u ++ [z] /\ Swap.is_break z = true.
Proof. intros (u & z & E & H). exists u, z. split; [exact E|]. unfold Swap.is_break. destruct H as [-> | ->]; [reflexivity|apply orb_true_r]. Qed.

Lemma break_not_letter z : Swap.is_break z = true -> is_alpha z = false /\ is_cont z = false.
Proof. intros H. destruct (Swap.break_cases _ H) as [->|[->|[->| ->]]]; split; reflexivity. Qed.

Lemma front_split (a b pre s : bytes) : a ++ b = pre ++ s -> length pre <= length a -> exists K, a = pre ++ K /\ s = K ++ b.
Proof.
  intros E L. apply app_eq_app in E. destruct E as (l & [[E1 E2]|[E1 E2]]).
  - exists l. auto.
  - rewrite E1, app_length in L. destruct l; [|cbn [length] in L; lia]. exists []. rewrite app_nil_r in *. cbn [app] in *. auto.
Qed.

Lemma length_pos (w : bytes) : w <> [] -> 0 < length w.
Proof. destruct w; [congruence|cbn [length]; lia]. Qed.

Theorem parse_argument unq a X Y B d i : valid_utf8 (a ++ X ++ B) = true -> argument_word X -> argument_word Y -> word_before a -> word_after B ->
  parse unq (a ++ X ++ B) = Ok d -> In i (d_instructions d) -> loose_instruction i ->
  s_start (instruction_span i) < length a -> length a + length X <= s_end (instruction_span i) ->
  (forall j sp, In j (d_instructions d) -> In sp (quotable_places j) -> around (length a) (length a + length X) sp = true ->
    ~ begins_quoted (text_at (a ++ X ++ B) sp)) ->
  valid_utf8 (a ++ Y ++ B) = true /\
  parse unq (a ++ Y ++ B) = Ok (reword_dockerfile (length a) (length a + length X) Y (a ++ Y ++ B) d).
Proof.
  intros V HX HY Ha HB H Hi Hl L1 L2 HQ. destruct (word_break a Ha) as (u & z & Ea & Hz). destruct (break_not_letter z Hz) as [Hz1 Hz2].
  assert (Va : valid_utf8 a = true).
  { destruct (valid_utf8_cut _ V u ([z] ++ X ++ B)) as [Vu V2]; [rewrite Ea, <- app_assoc; reflexivity|exact Hz2|].
    rewrite Ea, valid_utf8_app by exact Vu. destruct (Swap.break_cases _ Hz) as [->|[->|[->| ->]]]; reflexivity. }
  assert (VB : valid_utf8 B = true) by (rewrite valid_utf8_app in V by exact Va; rewrite valid_utf8_app in V by apply HX; exact V).
  split; [rewrite valid_utf8_app by exact Va; rewrite valid_utf8_app by apply HY; exact VB|].
  destruct (loose_name unq _ d i V H Hi Hl) as (pre & name & rest & Ei & Ep & Hn & Hr & Hw).
  destruct (instruction_token unq _ d i H Hi) as (q & f & t & P & U & w & s & s2 & R & Ht & He & Es & EP & Hbw & HU & RS & T1 & T2).
  assert (pre = P) as ->.
  { rewrite Ei in Es. apply (f_equal (firstn (length P))) in Es. rewrite firstn_app, (firstn_app (length P) P), Nat.sub_diag, firstn_O, app_nil_r, firstn_all in Es.
    rewrite T2, Ep, Nat.sub_diag, firstn_O, app_nil_r, firstn_all in Es. exact Es. }
  destruct (front_split a (X ++ B) P (name ++ rest) Ei ltac:(lia)) as (K & EK & EK2).
  rewrite Ei in Es. apply app_inv_head in Es. subst s. clear Ep.
  assert (HKn : exists K2, K = name ++ K2 /\ no_letter K2 /\ K2 <> [] /\ exists k, K2 = k ++ [z]).
  { assert (HKz : exists k, K = k ++ [z]).
    { rewrite EK in Ea. destruct K as [|k0 K0]; [rewrite app_nil_r in EK; subst; lia|].
      assert (Hne : k0 :: K0 <> []) by discriminate. destruct (exists_last Hne) as (k' & y & Ek). rewrite Ek in *.
      rewrite app_assoc in Ea. apply app_inj_tail in Ea. destruct Ea as [_ ->]. eauto. }
    destruct HKz as (k & Ek).
    pose proof EK2 as E3. apply app_eq_app in E3. destruct E3 as (l & [[E4 E5]|[E4 E5]]).
    - destruct l as [|y l].
      + exfalso. rewrite app_nil_r in E4. rewrite Ek in E4. destruct Hn as [_ Hn]. rewrite E4 in Hn. apply Forall_app in Hn.
        destruct Hn as [_ Hn]. apply Forall_inv in Hn. congruence.
      + exfalso. rewrite Ek in E4. destruct Hn as [_ Hn]. rewrite E4, <- app_assoc in Hn. apply Forall_app in Hn.
        destruct Hn as [_ Hn]. apply Forall_inv in Hn. congruence.
    - exists l. assert (Hlne : l <> []).
      { intros ->. rewrite app_nil_r in E4. rewrite Ek in E4. destruct Hn as [_ Hn]. rewrite <- E4 in Hn. apply Forall_app in Hn.
        destruct Hn as [_ Hn]. apply Forall_inv in Hn. congruence. }
      split; [exact E4|]. split; [destruct l; [congruence|]; rewrite E5 in Hr; exact Hr|]. split; [exact Hlne|].
      destruct (exists_last Hlne) as (k' & y & El). exists k'. rewrite El. f_equal. f_equal. rewrite E4, El, app_assoc in Ek. apply app_inj_tail in Ek. apply Ek. }
  destruct HKn as (K2 & EKn & HK2 & HK2n & kz & EKz).
  assert (VP : valid_utf8 P = true /\ valid_utf8 K = true).
  { rewrite EK in Va. destruct Hn as [Hn0 Hn]. destruct name as [|n0 name]; [congruence|]. apply (valid_utf8_cut _ Va P K eq_refl).
    rewrite EKn. cbn [app]. apply Forall_inv in Hn. apply Forward3.alpha_ascii in Hn. unfold is_cont, in_range. apply andb_false_iff. left. apply N.leb_gt. lia. }
  destruct VP as [VP VK].
  assert (HKs : exists k0 K1 y, K = k0 :: K1 ++ [y] /\ is_alpha k0 = true /\ Swap.is_break y = true).
  { destruct Hn as [Hn0 Hn]. destruct name as [|n0 name]; [congruence|]. exists n0, (name ++ kz), z.
    split; [rewrite EKn, EKz; cbn [app]; rewrite <- app_assoc; reflexivity|]. split; [apply Forall_inv in Hn; exact Hn|exact Hz]. }
  assert (HKb : Forall (fun k => match_insens k K = None) WordSwap.barred_words).
  { rewrite EKn. clear - Hw Hn HK2. repeat (apply Forall_cons_iff in Hw; destruct Hw as [?Hk Hw]).
    repeat constructor; (apply not_sought; [exact Hn|exact HK2|repeat constructor|reflexivity|assumption]). }
  assert (EA : WordSwap.before P K = a) by (symmetry; exact EK).
  destruct (WordSwap.worded_document P K X Y B HX HY VB HB HKs HKb) with (t := t) (q := q) (f := f) as [R' Hc].
  - exists U, w. split; [exact EP|]. split; [exact Hbw|exact HU].
  - exact VP.
  - exact VK.
  - exists (s_end (instruction_span i)), s2, [t]. rewrite EA. rewrite EK2 in RS. split; [exact RS|exact L2].
  - exact T1.
  - exact He.
  - exact Ht.
  - rewrite EA. exact R.
  - rewrite EA in R', Hc. unfold WordSwap.moved in R'. rewrite EA in R'.
    eapply parse_reword; [apply worded_texts; apply HX|apply plain_unquoted; apply HY|exact V|exact R|exact R'|exact Hc|exact H|].
    apply Forall_forall. intros j Hj. apply places_fit; [intros sp; apply HQ; exact Hj|].
    intros x ->. unfold around. destruct (Nat.leb_spec (s_start (ss_span (from_image x))) (length a)) as [M1|]; [|reflexivity].
    destruct (Nat.leb_spec (length a + length X) (s_end (ss_span (from_image x)))) as [M2|]; [|reflexivity]. exfalso.
    assert (Or : forall k, In k (d_instructions d) -> ordered (instruction_part k)).
    { intros k Hk y Hy. apply (C05_parts_in_order unq _ d k y V H Hk Hy). }
    destruct (selection_in _ _ (ss_span (from_image x)) (places_selected [IFrom x])) as (j' & y & Hj' & Hy & Ey).
    { cbn [flat_map quotable_places]. rewrite app_nil_r. apply in_or_app. right. left. reflexivity. }
    destruct Hj' as [<-|[]]. pose proof (within_inside _ (Or (IFrom x) Hj) y Hy) as In2. rewrite <- Ey in In2. cbn [instruction_part part_span] in In2.
    pose proof (length_pos X (proj1 (proj2 (proj1 HX)))) as LX.
    pose proof (C06_instructions_in_order unq _ d V H) as Oi. apply in_split in Hi. destruct Hi as (l1 & l2 & El). rewrite El, map_app in Oi. cbn [map] in Oi.
    assert (D : disjoint (instruction_span (IFrom x)) (instruction_span i)).
    { rewrite El in Hj. apply in_app_or in Hj. destruct Hj as [Hj|[->|Hj]]; [| |].
      - apply in_order_app in Oi. destruct Oi as [_ Oi]. left. apply Oi; [left; reflexivity|apply in_map; exact Hj].
      - destruct Hl.
      - change (instruction_span i :: map instruction_span l2) with ([instruction_span i] ++ map instruction_span l2) in Oi.
        rewrite app_assoc in Oi. apply in_order_app in Oi. destruct Oi as [_ Oi]. right.
        apply Oi; [apply in_map; exact Hj|apply in_or_app; right; left; reflexivity]. }
    unfold disjoint, inside in *. lia.
Qed.
