(** Where the instructions of a parse result come from: each is what the grammar's
    [step] makes of the text at its start. *)

From Coq Require Import String.
From Verif Require Import Bytes BytesFacts Grammar Peg PegFacts Result Ast Image SpecImage SpecSyntax Splicer Convert
  Dockerfile DocFacts PegRules PegTokens PegQuoted Sound SoundRules SoundInstr SoundDoc SpecClear Forward Forward2 Forward3 Forward4 Forward5 Shift Swap SwapParse SwapDoc EditFacts.
Local Open Scope nat_scope.

Lemma step_any p s q s' f t : run ctx0 (Opt (Alt (Call R_step) comment)) p s = Done q s' f -> In t f -> t_rule t <> R_comment ->
  run ctx0 (Call R_step) p s = Done q s' [t].
Proof.
  intros H Ht Hr. apply opt_inv in H; [|reflexivity]. destruct H as [H|(_ & _ & _ & ->)]; [|destruct Ht].
  apply alt_inv in H; [|reflexivity]. destruct H as [H|[_ H]].
  - pose proof H as K. apply call_inv in H. destruct H as (f' & H & ->). cbn [grammar fst snd rule_inner rule_tokens] in *.
    assert (E : exists u, f' = [u]).
    { do 8 (apply alt_inv in H; [|reflexivity]; destruct H as [H|[_ H]];
        [apply token_inv in H; [|discriminate]; destruct H as (l & _ & ->); eauto|]).
      apply token_inv in H; [|discriminate]; destruct H as (l & _ & ->); eauto. }
    destruct E as (u & ->). destruct Ht as [->|[]]. exact K.
  - exfalso. apply token_inv in H; [|discriminate]; destruct H as (l & _ & ->); destruct Ht as [<-|[]]; apply Hr; reflexivity.
Qed.

Lemma meta_any p s q s' f t : run ctx0 (Call R_meta_step) p s = Done q s' f -> In t f -> t_rule t <> R_comment ->
  exists b s1 q1 b2, s = b ++ s1 /\ blanks b /\ run ctx0 (Call R_step) (p + length b) s1 = Done q1 (b2 ++ s') [t] /\ blanks b2.
Proof.
  intros H Ht Hr. apply call_inv in H. destruct H as (f' & H & ->). cbn [grammar fst snd rule_inner rule_tokens] in *.
  apply seq_inv in H; [|reflexivity]. destruct H as (q1 & s1 & f1 & f2 & H1 & H & ->).
  apply seq_inv in H; [|reflexivity]. destruct H as (q2 & s2 & f3 & f4 & H2 & H3 & ->).
  apply blanks_inv in H1. destruct H1 as (b & Hb & -> & -> & -> & _).
  apply blanks_inv in H3. destruct H3 as (b2 & Hb2 & -> & -> & -> & _).
  rewrite app_nil_r in Ht. cbn [app] in Ht. exists b, s1, q2, b2. split; [reflexivity|]. split; [exact Hb|].
  split; [eapply step_any; eassumption|exact Hb2].
Qed.

Notation line := (Seq NEWLINE (Call R_meta_step)).

Lemma lines_any t : forall p s q f, run ctx0 (Rep line) p s = Done q [] f -> In t f ->
  exists u n s1 q1 s2 f1, s = u ++ n ++ s1 /\ newline n /\ run ctx0 (Call R_meta_step) (p + length u + length n) s1 = Done q1 s2 f1 /\
    In t f1 /\ (s2 = [] \/ newline_here s2 = true).
Proof.
  intros p s. remember (length s) as m eqn:Em. revert p s Em. induction m as [m IH] using lt_wf_ind. intros p s Em q f H Ht.
  rewrite run_rep in H by reflexivity. destruct (run ctx0 line p s) as [q1 s1 f1| |] eqn:E; [|injection H as _ _ <-; destruct Ht|discriminate].
  destruct (run ctx0 (Rep line) q1 s1) as [q2 s2 f2| |] eqn:E2; try discriminate. injection H as <- -> <-.
  pose proof (run_strict _ _ _ _ _ _ _ E eq_refl) as L. apply in_app_or in Ht. destruct Ht as [Ht|Ht].
  - apply seq_inv in E; [|reflexivity]. destruct E as (q3 & s3 & f3 & f4 & E3 & E4 & ->).
    apply newline_inv in E3. destruct E3 as (n & Hn & -> & -> & ->). cbn [app] in Ht.
    exists [], n, s3, q1, s1, f4. cbn [app length]. rewrite Nat.add_0_r. split; [reflexivity|]. split; [exact Hn|]. split; [exact E4|].
    split; [exact Ht|]. apply (lines_first _ _ _ _ E2).
  - destruct (run_consumes _ _ _ _ _ _ _ E) as (w & -> & ->).
    destruct (IH (length s1) ltac:(lia) (p + length w) s1 eq_refl q2 f2 E2 Ht) as (u & n & s3 & q3 & s4 & f3 & -> & Hn & R & Hin & Hs).
    exists (w ++ u), n, s3, q3, s4, f3. rewrite app_length, <- app_assoc. split; [reflexivity|]. split; [exact Hn|].
    split; [|split; assumption]. rewrite Nat.add_assoc. exact R.
Qed.

Lemma document_any input q f t : run ctx0 (Call R_dockerfile) 0 input = Done q [] [Node R_dockerfile 0 q f] -> In t f ->
  t_rule t <> R_comment -> t_rule t <> R_EOI ->
  exists P s q1 b2 s2, input = P ++ s /\ run ctx0 (Call R_step) (length P) s = Done q1 (b2 ++ s2) [t] /\ blanks b2 /\
    (s2 = [] \/ newline_here s2 = true).
Proof.
  intros R Ht Hr He. apply call_inv in R. destruct R as (f' & R & Ef).
  cbn [grammar fst snd rule_inner rule_tokens wrap emits ctx0 look atom] in Ef. injection Ef as <-.
  cbn [grammar fst snd rule_inner] in R. change (rule_outer Normal ctx0) with ctx0 in R.
  apply seq_inv in R; [|reflexivity]. destruct R as (q0 & s0 & f0 & f1 & R0 & R & ->).
  rewrite run_soi in R0. cbn [Nat.eqb] in R0. injection R0 as <- <- <-. cbn [app] in Ht.
  apply seq_inv in R; [|reflexivity]. destruct R as (q1 & s1 & f2 & f3 & R1 & R & ->).
  apply seq_inv in R; [|reflexivity]. destruct R as (q2 & s2 & f4 & f5 & R2 & R3 & ->).
  assert (s2 = []) as ->.
  { apply call_inv in R3. destruct R3 as (fe & R3 & _). cbn [grammar fst snd] in R3. rewrite run_eoi in R3.
    destruct s2; [reflexivity|discriminate]. }
  assert (Ht5 : ~ In t f5).
  { intros K. apply token_inv in R3; [|discriminate]. destruct R3 as (l & _ & ->). destruct K as [<-|[]]. apply He. reflexivity. }
  apply in_app_or in Ht. destruct Ht as [Ht|Ht]; [|apply in_app_or in Ht; destruct Ht as [Ht|Ht]; [|contradiction]].
  - destruct (meta_any _ _ _ _ _ _ R1 Ht Hr) as (b & s3 & q3 & b2 & -> & Hb & RF & Hb2). cbn [Nat.add] in RF.
    exists b, s3, q3, b2, s1. split; [reflexivity|]. split; [exact RF|]. split; [exact Hb2|apply (lines_first _ _ _ _ R2)].
  - destruct (lines_any t _ _ _ _ R2 Ht) as (u & n & s3 & q3 & s4 & f6 & -> & Hn & RM & Hin & Hs).
    destruct (meta_any _ _ _ _ _ _ RM Hin Hr) as (b & s5 & q5 & b2 & -> & Hb & RF & Hb2).
    destruct (run_consumes _ _ _ _ _ _ _ R1) as (w1 & -> & ->). cbn [Nat.add] in *.
    exists (w1 ++ u ++ n ++ b), s5, q5, b2, s4.
    split; [rewrite <- !app_assoc; reflexivity|]. split; [rewrite !app_length, !Nat.add_assoc; exact RF|]. split; assumption.
Qed.

Section Unq.
Variable unq : bytes -> option bytes.

Lemma instruction_spans src t i : instruction_of unq src t = Ok i -> instruction_span i = span_of t.
Proof.
  assert (B : forall A C (o : outcome A) (k : A -> outcome C) c, bind o k = Ok c -> exists a, o = Ok a /\ k a = Ok c).
  { intros A C o k c H. destruct o; try discriminate. eauto. }
  unfold instruction_of. intros H. destruct (t_rule t); try discriminate; apply B in H; destruct H as (x & H & K); injection K as <-;
    cbn [instruction_span].
  - unfold from_of in H. apply B in H. destruct H as ([[a b] l] & _ & H). apply B in H. destruct H as (im & _ & H).
    apply B in H. destruct H as (u & _ & H). apply B in H. destruct H as (al & _ & H). injection H as <-. reflexivity.
  - unfold arg_of in H. apply B in H. destruct H as ([a b] & _ & H). apply B in H. destruct H as (n & _ & H). injection H as <-. reflexivity.
  - unfold label_instruction_of in H. apply B in H. destruct H as (l & _ & H). injection H as <-. reflexivity.
  - unfold run_of in H. apply B in H. destruct H as (l & _ & H). injection H as <-. reflexivity.
  - unfold entrypoint_of in H. apply B in H. destruct H as (l & _ & H). injection H as <-. reflexivity.
  - unfold cmd_of in H. apply B in H. destruct H as (l & _ & H). injection H as <-. reflexivity.
  - unfold copy_of in H. apply B in H. destruct H as ([fl ps] & _ & H). destruct (length ps <? 2); [discriminate|].
    destruct (pop ps) as [[a b]|]; [|discriminate]. injection H as <-. reflexivity.
  - unfold env_of in H. destruct (t_children t) as [|u l]; [discriminate|]. destruct (t_rule u); try discriminate.
    + unfold env_pairs_of in H. apply B in H. destruct H as (v & _ & H). injection H as <-. reflexivity.
    + unfold env_single_of in H. apply B in H. destruct H as ([n v] & _ & H). apply B in H. destruct H as (n' & _ & H).
      apply B in H. destruct H as (v' & _ & H). injection H as <-. reflexivity.
  - unfold misc_of in H. apply B in H. destruct H as ([n v] & _ & H). apply B in H. destruct H as (n' & _ & H).
    apply B in H. destruct H as (v' & _ & H). injection H as <-. reflexivity.
Qed.

Lemma doc_step_token src st t st' i : doc_step unq src st t = Ok st' -> ds_instructions st' = ds_instructions st ++ [i] ->
  t_rule t <> R_comment /\ t_rule t <> R_EOI /\ exists j n, instruction_of unq src t = Ok j /\ numbered n [j] = [i].
Proof.
  intros H E. assert (N : forall l, l <> l ++ [i]). { intros l K. apply (f_equal (@length _)) in K. rewrite app_length in K. cbn in K. lia. }
  unfold doc_step in H.
  destruct (t_rule t) eqn:Er; try (injection H as <-; apply N in E; contradiction); (split; [discriminate|split; [discriminate|]]);
    (destruct (instruction_of unq src t) as [j|e| |] eqn:Ej; try discriminate; cbn [bind] in H; exists j, (ds_from_index st);
     split; [reflexivity|]; destruct j; injection H as <-; cbn [ds_instructions] in E; apply app_inv_head in E; injection E as <-; reflexivity).
Qed.

Theorem instruction_step input d i : parse unq input = Ok d -> In i (d_instructions d) ->
  exists P s q b2 s2 t j n, input = P ++ s /\ length P = s_start (instruction_span i) /\
    run ctx0 (Call R_step) (length P) s = Done q (b2 ++ s2) [t] /\ blanks b2 /\ (s2 = [] \/ newline_here s2 = true) /\
    instruction_of unq input t = Ok j /\ numbered n [j] = [i].
Proof.
  intros H Hi. unfold parse in H. rewrite pest_parse_run in H.
  destruct (run ctx0 (Call R_dockerfile) 0 input) as [q s' fs| |] eqn:R; try discriminate.
  pose proof R as R0. apply call_inv in R0. destruct R0 as (f' & R0 & Ef).
  cbn [grammar fst snd rule_inner rule_tokens wrap emits ctx0 look atom] in Ef. subst fs.
  cbn [grammar fst snd rule_inner] in R0. change (rule_outer Normal ctx0) with ctx0 in R0.
  assert (s' = []) as ->.
  { apply seq_inv in R0; [|reflexivity]. destruct R0 as (p1 & s1 & f1 & f2 & _ & R0 & _).
    apply seq_inv in R0; [|reflexivity]. destruct R0 as (p2 & s2 & f3 & f4 & _ & R0 & _).
    apply seq_inv in R0; [|reflexivity]. destruct R0 as (p3 & s3 & f5 & f6 & _ & R0 & _).
    apply call_inv in R0. destruct R0 as (fe & R0 & _). cbn [grammar fst snd] in R0. rewrite run_eoi in R0.
    destruct s3; [congruence|discriminate]. }
  clear R0. change (wrap (rule_outer Normal ctx0) R_dockerfile 0 q f') with [Node R_dockerfile 0 q f'] in *. cbn [t_children] in H.
  destruct (for_each (doc_step unq input) f' (DocState [] [] false 0)) as [st|e| |] eqn:Est; try discriminate.
  cbn [bind] in H. injection H as <-. cbn [d_instructions] in *.
  apply in_split in Hi. destruct Hi as (l1 & l2 & El).
  destruct (doc_steps_find _ _ _ _ _ l1 i l2 Est El) as (fa & t & fb & sta & stb & -> & _ & _ & E3 & E4 & _).
  destruct (doc_step_token _ _ _ _ _ E3 E4) as (Hr1 & Hr2 & j & n & Ej & En).
  assert (Hin : In t (fa ++ t :: fb)) by (apply in_or_app; right; left; reflexivity).
  destruct (document_any _ _ _ _ R Hin Hr1 Hr2) as (P & s & q1 & b2 & s2 & E & RF & Hb & Hs).
  exists P, s, q1, b2, s2, t, j, n. split; [exact E|]. split; [|split; [exact RF|split; [exact Hb|split; [exact Hs|split; [exact Ej|exact En]]]]].
  assert (Es : instruction_span i = instruction_span j). { destruct j; cbn [numbered] in En; injection En as <-; reflexivity. }
  rewrite Es, (instruction_spans _ _ _ Ej). clear - RF. apply call_inv in RF. destruct RF as (f1 & RF & K). cbn [grammar fst snd rule_inner rule_tokens] in *. subst f1.
  do 8 (apply alt_inv in RF; [|reflexivity]; destruct RF as [RF|[_ RF]];
    [apply token_inv in RF; [|discriminate]; destruct RF as (l & _ & K); injection K as ->; reflexivity|]).
  apply token_inv in RF; [|discriminate]; destruct RF as (l & _ & K); injection K as ->; reflexivity.
Qed.

(** A clear instruction at the start of an instruction *)
Theorem clear_here input d i pre w post j : valid_utf8 input = true -> parse unq input = Ok d -> In i (d_instructions d) ->
  input = pre ++ w ++ post -> clear_line_at unq (length pre) w [j] -> at_line_end post ->
  s_start (instruction_span i) = s_start (instruction_span j) -> exists n, numbered n [j] = [i].
Proof.
  intros Hv H Hi E Hl Hp Es. destruct (instruction_step input d i H Hi) as (P & s & q & b2 & s2 & t & j' & n & EP & LP & R & _ & _ & Ej & En).
  assert (K : exists q' s' t', run ctx0 (Call R_step) (length P) s = Done q' s' [t'] /\ gives unq input t' j).
  { assert (Q : forall b v rest, input = pre ++ b ++ v ++ rest -> s_start (instruction_span j) = length pre + length b ->
      (match v ++ rest with x :: _ => is_alpha x = true | [] => False end) ->
      length P = length pre + length b /\ s = v ++ rest /\ valid_utf8 (v ++ rest) = true /\ Sound.pos input (length pre + length b) (v ++ rest)).
    { intros b v rest Ei Ej0 Ha. assert (LP' : length P = length (pre ++ b)) by (rewrite app_length; lia).
      assert (Ei' : P ++ s = (pre ++ b) ++ v ++ rest) by (rewrite <- EP, Ei, <- app_assoc; reflexivity).
      assert (EQ : P = pre ++ b /\ s = v ++ rest).
      { split.
        - apply (f_equal (firstn (length P))) in Ei'. rewrite firstn_app, Nat.sub_diag, firstn_O, app_nil_r, firstn_all in Ei'.
          rewrite LP', firstn_app, Nat.sub_diag, firstn_O, app_nil_r, firstn_all in Ei'. exact Ei'.
        - apply (f_equal (skipn (length P))) in Ei'. rewrite skipn_app_exact, LP', skipn_app_exact in Ei'. exact Ei'. }
      destruct EQ as [-> ->]. rewrite app_length in *. split; [reflexivity|]. split; [reflexivity|]. split.
      - apply (valid_utf8_cut input Hv (pre ++ b) (v ++ rest) EP). destruct (v ++ rest) as [|c u]; [exact I|].
        pose proof (alpha_ascii c Ha). unfold is_cont, in_range. destruct (N.leb_spec 128 c); [lia|reflexivity].
      - unfold Sound.pos. rewrite EP, <- app_length. apply skipn_app_exact. }
    inversion Hl as [| |p b v b3 i0 Hb Hc Hb3|p b v i0 Hb Hc]; subst p i0; subst w.
    - pose proof (closed_span unq _ _ _ Hc) as Ec.
      destruct (Q b v (b3 ++ post)) as (L & -> & V & Po).
      { rewrite E, <- !app_assoc. reflexivity. }
      { rewrite Ec. reflexivity. }
      { apply (closed_head_letter unq _ _ _ _ Hc). }
      destruct (closed_step_fwd unq input _ v j (b3 ++ post) Hc) as (t' & RT & G); [exists b3, post; auto|exact V|exact Po|].
      rewrite L. eauto.
    - pose proof (open_span unq _ _ _ Hc) as Ec.
      destruct (Q b v post) as (L & -> & V & Po).
      { rewrite E, <- !app_assoc. reflexivity. }
      { rewrite Ec. reflexivity. }
      { apply (open_head_letter unq _ _ _ _ Hc). }
      destruct (open_step_fwd unq input _ v j post Hc) as (t' & RT & G); [exact Hp|exact V|exact Po|].
      rewrite L. eauto. }
  destruct K as (q' & s' & t' & RT & _ & _ & G). rewrite R in RT. injection RT as _ _ <-.
  exists n. destruct j; try (rewrite Ej in G; injection G as ->; exact En).
  destruct G as (y & Gy & Gn). rewrite Ej in Gy. injection Gy as ->. rewrite <- En. cbn [numbered].
  specialize (Gn n). unfold set_index in Gn. rewrite Gn. reflexivity.
Qed.

End Unq.
