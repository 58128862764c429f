(** Flags and FROM with the text that follows: both directions, see SpecExact.v. *)

From Coq Require Import String.
From Verif Require Import Bytes BytesFacts Grammar Peg Result Ast Splicer Image Convert ImageFacts Dockerfile DocFacts
  PegFacts SpecImage SpecSyntax SpecClear SpecExact PegRules PegTokens PegQuoted Sound SoundRules SoundInstr
  Forward Forward2 Forward3 ListFacts Forward4 Exact Exact2.
Local Open Scope nat_scope.

Lemma fails_or c e p s : good e = true -> (forall q s' f, run c e p s <> Done q s' f) -> run c e p s = Fail.
Proof.
  intros G H. pose proof (run_total c e p s G) as Ht. destruct (run c e p s) as [q s' f| |]; [|reflexivity|congruence].
  exfalso. apply (H q s' f). reflexivity.
Qed.

Lemma word_over_prefix a v s : v <> [] -> (word_over v s <-> word_over (a ++ v) s).
Proof.
  intros Hv. unfold word_over. split; intros [H1 H2]; (split; [exact H1|]); intros (u & b & n & t & E & Es & Hb & Hn); apply H2.
  - destruct (exists_last Hv) as (v0 & x & ->). rewrite app_assoc in E. apply app_inj_tail in E. destruct E as [<- ->]. exists v0, b, n, t. auto.
  - exists (a ++ u), b, n, t. rewrite E, <- app_assoc. auto.
Qed.

Lemma word_rule_exact r k p s q s' f : grammar r = (k, any_whitespace) -> k <> Silent -> valid_utf8 s = true ->
  run ctx0 (Call r) p s = Done q s' f ->
  exists w ch, s = w ++ s' /\ q = p + length w /\ word w /\ f = [Node r p q ch] /\ word_over w s'.
Proof.
  intros Hr Hk Hv H. apply token_inv in H; [|rewrite Hr; exact Hk]. destruct H as (f' & H & ->).
  rewrite Hr in H. cbn [fst snd] in H. apply word_exact in H; [|exact Hv].
  destruct H as (w & -> & -> & Hw & _ & Ho). exists w, f'. auto.
Qed.

Lemma word_rule_over_fwd r k p w s : grammar r = (k, any_whitespace) -> k <> Silent -> word w -> word_over w s ->
  valid_utf8 (w ++ s) = true ->
  run ctx0 (Call r) p (w ++ s) = Done (p + length w) s [Node r p (p + length w) []].
Proof. intros Hr Hk Hw Ho Hv. apply token_fwd; rewrite Hr; [exact Hk|]. cbn [fst snd]. apply word_over_fwd; assumption. Qed.

Lemma flag_text_valid w s : flag_text w -> valid_utf8 (w ++ s) = valid_utf8 s.
Proof.
  intros (name & value & -> & Hn & Hv). cbn [app]. rewrite !valid_utf8_cons_ascii by reflexivity.
  rewrite <- app_assoc. rewrite (Forward3.class_valid is_alpha); [|apply alpha_ascii|apply Hn]. cbn [app].
  rewrite valid_utf8_cons_ascii by reflexivity. apply Forward3.word_valid. exact Hv.
Qed.

Lemma gap_over_solid k g c t : gap k g -> solid c -> gap_over g (c :: t).
Proof.
  intros _ (H1 & H2 & H3 & H4). split.
  - intros (k2 & u & E & (b & n & -> & _)). cbn [app] in E. injection E as -> _. congruence.
  - split; [exact H1|]. auto.
Qed.

Lemma dash_solid : solid DASH.
Proof. repeat split; discriminate. Qed.

(** A gap goes as far as it can, so there is only one. *)
Lemma gap_before_unique g t g2 t2 : g <> [] -> g2 <> [] -> gap_before g t -> gap_before g2 t2 -> g ++ t = g2 ++ t2 ->
  valid_utf8 (g ++ t) = true -> g = g2 /\ t = t2.
Proof.
  intros Hne Hne2 Hg Hg2 E Hv. destruct (gap_before_fwd g t 0 Hne Hg Hv) as (f & E1 & _).
  rewrite E in Hv, E1. destruct (gap_before_fwd g2 t2 0 Hne2 Hg2 Hv) as (f2 & E2 & _). rewrite E2 in E1.
  assert (Et : t2 = t) by (revert E1; generalize (0 + length g2) (0 + length g); intros a b K; injection K; auto).
  subst t2. apply app_inv_tail in E. auto.
Qed.

Lemma gap_unique_cut k k2 g t g2 t2 : gap k g -> gap k2 g2 -> g <> [] -> g2 <> [] -> gap_over g t -> gap_over g2 t2 ->
  g ++ t = g2 ++ t2 -> valid_utf8 (g ++ t) = true -> g = g2 /\ t = t2.
Proof.
  intros Hg Hg2 Hne Hne2 Ho Ho2. apply gap_before_unique; auto; split; eauto.
Qed.

Lemma flags_before_valid fl s : flags_before fl s -> valid_utf8 (fl ++ s) = valid_utf8 s.
Proof.
  induction 1 as [s H|k g w fl s Hg Hne Hf Ho Hfl IH]; [reflexivity|].
  rewrite <- !app_assoc, (valid_gap _ _ _ Hg), flag_text_valid by exact Hf. exact IH.
Qed.

Section FlagRules.
Variables r rn rv : rule.
Hypothesis Hr : grammar r = (Normal, Seq (Str [DASH; DASH]) (Seq (Call rn) (Seq (Str [EQUALS]) (Call rv)))).
Hypothesis G : good (Seq (Str [DASH; DASH]) (Seq (Call rn) (Seq (Str [EQUALS]) (Call rv)))) = true.
Hypothesis Hn : grammar rn = (AtomicRule, rep1 ASCII_ALPHA).
Hypothesis Hw : grammar rv = (AtomicRule, any_whitespace).

Lemma flag_tokens_exact p s q s' f : valid_utf8 s = true -> run ctx0 (Call r) p s = Done q s' f ->
  exists name value c1 c2,
    s = ([DASH; DASH] ++ name ++ EQUALS :: value) ++ s' /\
    q = p + length ([DASH; DASH] ++ name ++ EQUALS :: value) /\ letters name /\ word value /\
    word_over ([DASH; DASH] ++ name ++ EQUALS :: value) s' /\
    f = [Node r p (p + length ([DASH; DASH] ++ name ++ EQUALS :: value))
           [Node rn (p + 2) (p + 2 + length name) c1;
            Node rv (p + 2 + length name + 1) (p + 2 + length name + 1 + length value) c2]].
Proof.
  intros Hv H. apply token_inv in H; [|rewrite Hr; discriminate]. destruct H as (f' & H & ->).
  rewrite Hr in H. cbn [fst snd rule_inner rule_outer] in H.
  apply seq_inv in H; [|exact G]. destruct H as (q1 & s1 & f1 & f2 & H1 & H & ->).
  pose proof (proj2 (good_sub _ G)) as G1. pose proof (proj2 (good_sub _ G1)) as G2.
  apply str_inv in H1. destruct H1 as (-> & -> & ->). rewrite valid_utf8_ascii_app in Hv by reflexivity.
  apply seq_inv in H; [|exact G1]. destruct H as (q2 & s2 & f3 & f4 & H1 & H & ->).
  pose proof (run_valid _ _ _ _ _ _ _ H1 Hv eq_refl) as Hv1.
  apply letters_rule_inv in H1; [|exact Hn]. destruct H1 as (name & c1 & -> & -> & Hl & -> & _).
  apply seq_inv in H; [|exact G2]. destruct H as (q3 & s3 & f5 & f6 & H1 & H & ->).
  apply str_inv in H1. destruct H1 as (-> & -> & ->). rewrite valid_utf8_ascii_app in Hv1 by reflexivity.
  apply (word_rule_exact rv AtomicRule) in H; [|exact Hw|discriminate|exact Hv1].
  destruct H as (value & c2 & -> & -> & Hval & -> & Ho).
  exists name, value, c1, c2. cbn [length] in *.
  assert (El : p + length ([DASH; DASH] ++ name ++ EQUALS :: value) = p + 2 + length name + 1 + length value).
  { rewrite !app_length. cbn [length]. lia. }
  rewrite El. split; [rewrite <- !app_assoc; reflexivity|]. split; [reflexivity|]. split; [exact Hl|]. split; [exact Hval|].
  split; [|reflexivity]. change ([DASH; DASH] ++ name ++ EQUALS :: value) with ([DASH; DASH] ++ name ++ [EQUALS] ++ value).
  rewrite !app_assoc. apply word_over_prefix; [apply Hval|exact Ho].
Qed.

Lemma flag_tokens_fwd name value s p : letters name -> word value -> word_over ([DASH; DASH] ++ name ++ EQUALS :: value) s ->
  valid_utf8 s = true ->
  run ctx0 (Call r) p (([DASH; DASH] ++ name ++ EQUALS :: value) ++ s) =
    Done (p + length ([DASH; DASH] ++ name ++ EQUALS :: value)) s
      [Node r p (p + length ([DASH; DASH] ++ name ++ EQUALS :: value))
        [Node rn (p + 2) (p + 2 + length name) []; Node rv (p + 2 + length name + 1) (p + 2 + length name + 1 + length value) []]].
Proof.
  intros Hnm Hv Ho Hvu. pose proof (good_sub _ G) as [_ G1]. pose proof (good_sub _ G1) as [_ G2].
  change ([DASH; DASH] ++ name ++ EQUALS :: value) with ([DASH; DASH] ++ name ++ [EQUALS] ++ value) in Ho.
  rewrite !app_assoc in Ho. apply word_over_prefix in Ho; [|apply Hv].
  assert (Hvv : valid_utf8 (value ++ s) = true) by (rewrite Forward3.word_valid; assumption).
  rewrite <- app_assoc. cbn [app]. rewrite <- app_assoc. cbn [app length].
  apply token_fwd; rewrite Hr; [discriminate|]. cbn [fst snd rule_inner rule_outer]. rewrite run_seq by exact G.
  rewrite run_str. cbn [match_str]. change (DASH =? DASH)%N with true. cbn iota. cbn [length].
  rewrite run_seq by exact G1. rewrite letters_fwd; [|exact Hn|exact Hnm|reflexivity].
  rewrite run_seq by exact G2. rewrite class_str. change (EQUALS =? EQUALS)%N with true. cbn iota.
  rewrite (word_rule_over_fwd rv AtomicRule) by (assumption || discriminate).
  cbn [app]. f_equal. rewrite app_length. cbn [length]. lia.
Qed.

Lemma flag_text_fwd w s p : flag_text w -> word_over w s -> valid_utf8 s = true ->
  exists t, run ctx0 (Call r) p (w ++ s) = Done (p + length w) s [t].
Proof. intros (name & value & -> & Hnm & Hv) Ho Hvu. eexists. apply flag_tokens_fwd; assumption. Qed.

Hypothesis G3 : good (Rep (Seq arg_ws (Call r))) = true.
Hypothesis A3 : ascii_expr (Call r) = true.
Hypothesis N3 : nullable (Call r) = false.

Lemma flag_ahead_iff p s : valid_utf8 s = true -> (run ctx0 (Seq arg_ws (Call r)) p s = Fail <-> ~ flag_ahead s).
Proof.
  intros Hv. pose proof (proj1 (good_sub _ G3)) as G4. split.
  - intros H (k & g & w & t & -> & Hg & Hne & Hf & Ho).
    assert (Hvt : valid_utf8 t = true) by (rewrite (valid_gap _ _ _ Hg), flag_text_valid in Hv by exact Hf; exact Hv).
    assert (Hvw : valid_utf8 (w ++ t) = true) by (rewrite flag_text_valid by exact Hf; exact Hvt).
    rewrite run_seq in H by exact G4. destruct (gap_over_fwd k g (w ++ t) p Hg Hne) as (f & E & _).
    + destruct Hf as (? & ? & -> & _). apply (gap_over_solid k); [exact Hg|apply dash_solid].
    + exact Hvw.
    + rewrite E in H. destruct (flag_text_fwd w t (p + length g) Hf Ho Hvt) as (u & E2). rewrite E2 in H. discriminate.
  - intros H. apply fails_or; [exact G4|]. intros q s' f E. apply H.
    apply seq_inv in E; [|exact G4]. destruct E as (q1 & s1 & f1 & f2 & H1 & E & ->).
    pose proof (run_valid _ _ _ _ _ _ _ H1 Hv eq_refl) as Hv1.
    pose proof (run_strict _ _ _ _ _ _ _ E N3) as Hs.
    apply gap_exact_more in H1; [|exact Hv|intros ->; cbn in Hs; lia].
    destruct H1 as (g & -> & -> & _ & Hgn & Hg & _).
    apply flag_tokens_exact in E; [|exact Hv1]. destruct E as (name & value & c1 & c2 & -> & _ & Hl & Hval & Ho & _).
    eexists _, g, _, s'. split; [reflexivity|]. split; [exact Hg|]. split; [exact Hgn|]. split; [|exact Ho].
    exists name, value. auto.
Qed.

(** The flags before an instruction's other parts, as text *)
Lemma flags_text_exact p s q s' f : valid_utf8 s = true -> run ctx0 (Rep (Seq arg_ws (Call r))) p s = Done q s' f ->
  exists fl, s = fl ++ s' /\ flags_before fl s'.
Proof.
  intros Hv H.
  destruct (rep_ind ctx0 (Seq arg_ws (Call r)) (fun p w f s' => valid_utf8 (w ++ s') = true -> flags_before w s') G3) with (3 := H) as (w & -> & _ & K).
  - intros p0 s0 H0 Hv0. apply flags_none. apply (flag_ahead_iff p0); assumption.
  - clear H Hv. intros p0 w1 s1 f1 w2 f2 s2 H1 -> _ IH Hv0. rewrite <- app_assoc in Hv0.
    apply seq_inv in H1; [|apply (good_sub _ G3)]. destruct H1 as (q1 & u1 & g1 & g2 & H1 & E & _).
    pose proof (run_valid _ _ _ _ _ _ _ H1 Hv0 eq_refl) as Hv1.
    pose proof (run_strict _ _ _ _ _ _ _ E N3) as Hs.
    apply gap_exact_more in H1; [|exact Hv0|intros ->; cbn in Hs; lia].
    destruct H1 as (g & E1 & -> & _ & Hgn & Hg & _).
    apply flag_tokens_exact in E; [|exact Hv1]. destruct E as (name & value & c1 & c2 & -> & Eq & Hl & Hval & Ho & _).
    rewrite (app_assoc g) in E1. apply app_inv_tail in E1. subst w1. rewrite <- app_assoc.
    eapply flags_one; [exact Hg|exact Hgn|exists name, value; auto|exact Ho|]. apply IH.
    rewrite flag_text_valid in Hv1 by (exists name, value; auto). exact Hv1.
  - exists w. auto.
Qed.

Lemma flags_text_fwd fl s : flags_before fl s -> forall p, valid_utf8 s = true ->
  exists f, run ctx0 (Rep (Seq arg_ws (Call r))) p (fl ++ s) = Done (p + length fl) s f.
Proof.
  pose proof (proj1 (good_sub _ G3)) as G4.
  induction 1 as [s H|k g w fl s Hg Hne Hf Ho Hfl IH]; intros p Hv.
  - rewrite run_rep by exact G3. apply (flag_ahead_iff p) in H; [|exact Hv]. cbn [app]. rewrite H. cbn [length]. rewrite Nat.add_0_r. eauto.
  - assert (Hvf : valid_utf8 (fl ++ s) = true).
    { clear - Hfl Hv. revert Hv. induction Hfl as [s H|k g w fl s Hg Hne Hf Ho Hfl IH]; [auto|]. intros Hv. rewrite <- !app_assoc, (valid_gap _ _ _ Hg), flag_text_valid by exact Hf. apply IH, Hv. }
    rewrite <- !app_assoc. rewrite run_rep by exact G3. rewrite run_seq by exact G4.
    destruct (gap_over_fwd k g (w ++ fl ++ s) p Hg Hne) as (f & E & _).
    { destruct Hf as (? & ? & -> & _). apply (gap_over_solid k); [exact Hg|apply dash_solid]. }
    { rewrite flag_text_valid by exact Hf. exact Hvf. }
    rewrite E. destruct (flag_text_fwd w (fl ++ s) (p + length g) Hf Ho Hvf) as (u & E2). rewrite E2.
    destruct (IH (p + length g + length w) Hv) as (f2 & E3). rewrite E3. rewrite !app_length, !Nat.add_assoc. eauto.
Qed.
End FlagRules.

Section Flags.
Variable unq : bytes -> option bytes.
Variable src : bytes.
Notation pos := (pos src).
Notation yields := (yields unq src).
Notation from_step := (from_step unq src).

Definition flag_reads (p : nat) (w s : bytes) (x : flag) : Prop := flag_at unq p w x /\ word_over w s.

Lemma flag_at_text p w x : flag_at unq p w x -> flag_text w.
Proof. intros (name & value & v & -> & Hn & Hv & _). exists name, value. auto. Qed.

Lemma flag_reads_valid p w x s : flag_reads p w s x -> valid_utf8 (w ++ s) = valid_utf8 s.
Proof. intros [H _]. apply flag_text_valid. apply (flag_at_text _ _ _ H). Qed.

Lemma from_flag_exact p s q s' f : valid_utf8 s = true -> pos p s -> run ctx0 (Call R_from_flag) p s = Done q s' f ->
  exists w t, s = w ++ s' /\ q = p + length w /\ f = [t] /\ t_rule t = R_from_flag /\
    yields (flag_reads p w s') (from_flag_of unq src t).
Proof.
  intros Hv Hp H. apply (flag_tokens_exact _ R_from_flag_name R_from_flag_value) in H; try reflexivity; [|exact Hv].
  destruct H as (name & value & c1 & c2 & -> & -> & Hn & Hval & Ho & ->).
  eexists _, _. split; [reflexivity|]. split; [reflexivity|]. split; [reflexivity|]. split; [reflexivity|].
  destruct (flag_result unq src name value c1 R_from_flag_name c2 R_from_flag_value p s' Hp Hn) as [E1 E2].
  unfold from_flag_of. cbn [t_children for_each t_rule]. rewrite E1. cbn [bind t_rule].
  match type of E2 with Sound.yields _ _ _ ?o => destruct o as [v|e| |] end; cbn [bind ok_or] in *; try exact E2.
  split; [|exact Ho]. exists name, value, v. auto.
Qed.

Lemma copy_flag_exact p s q s' f : valid_utf8 s = true -> pos p s -> run ctx0 (Call R_copy_flag) p s = Done q s' f ->
  exists w t, s = w ++ s' /\ q = p + length w /\ f = [t] /\ t_rule t = R_copy_flag /\
    yields (flag_reads p w s') (copy_flag_of unq src t).
Proof.
  intros Hv Hp H. apply (flag_tokens_exact _ R_copy_flag_name R_copy_flag_value) in H; try reflexivity; [|exact Hv].
  destruct H as (name & value & c1 & c2 & -> & -> & Hn & Hval & Ho & ->).
  eexists _, _. split; [reflexivity|]. split; [reflexivity|]. split; [reflexivity|]. split; [reflexivity|].
  destruct (flag_result unq src name value c1 R_copy_flag_name c2 R_copy_flag_value p s' Hp Hn) as [E1 E2].
  unfold copy_flag_of. cbn [t_children for_each t_rule]. rewrite E1. cbn [bind t_rule].
  match type of E2 with Sound.yields _ _ _ ?o => destruct o as [v|e| |] end; cbn [bind ok_or] in *; try exact E2.
  split; [|exact Ho]. exists name, value, v. auto.
Qed.

Lemma flag_parts name value v c1 rn c2 rv p s : pos p (([DASH; DASH] ++ name ++ EQUALS :: value) ++ s) ->
  letters name -> string_at unq (p + 2 + length name + 1) value v ->
  parse_string unq src (Node rn (p + 2) (p + 2 + length name) c1) = Ok (SpannedString (at_ (p + 2) name) name) /\
  parse_string unq src (Node rv (p + 2 + length name + 1) (p + 2 + length name + 1 + length value) c2) = Ok v.
Proof.
  intros Hp Hl Hx. rewrite <- !app_assoc in Hp. apply pos_app in Hp. cbn [length] in Hp.
  split.
  - eapply parse_string_plain; [exact Hp|]. apply letters_not_quoted. exact Hl.
  - apply pos_app in Hp. change ((EQUALS :: value) ++ s) with ([EQUALS] ++ value ++ s) in Hp.
    apply pos_app in Hp. apply (parse_string_fwd unq src _ _ _ _ _ _ Hp Hx).
Qed.

Lemma from_flag_reads_fwd p w x s : flag_reads p w s x -> valid_utf8 (w ++ s) = true -> pos p (w ++ s) ->
  exists t, run ctx0 (Call R_from_flag) p (w ++ s) = Done (p + length w) s [t] /\ t_rule t = R_from_flag /\
    from_flag_of unq src t = Ok x.
Proof.
  intros Hf Hv Hp. rewrite (flag_reads_valid _ _ _ _ Hf) in Hv. destruct Hf as [(name & value & v & -> & Hn & Hval & Hx & ->) Ho].
  eexists. split; [apply (flag_tokens_fwd R_from_flag R_from_flag_name R_from_flag_value); try reflexivity; assumption|].
  split; [reflexivity|].
  destruct (flag_parts name value v [] R_from_flag_name [] R_from_flag_value p s Hp Hn Hx) as [E1 E2].
  unfold from_flag_of. cbn [t_children for_each t_rule]. rewrite E1. cbn [bind t_rule]. rewrite E2. reflexivity.
Qed.

Lemma copy_flag_reads_fwd p w x s : flag_reads p w s x -> valid_utf8 (w ++ s) = true -> pos p (w ++ s) ->
  exists t, run ctx0 (Call R_copy_flag) p (w ++ s) = Done (p + length w) s [t] /\ t_rule t = R_copy_flag /\
    copy_flag_of unq src t = Ok x.
Proof.
  intros Hf Hv Hp. rewrite (flag_reads_valid _ _ _ _ Hf) in Hv. destruct Hf as [(name & value & v & -> & Hn & Hval & Hx & ->) Ho].
  eexists. split; [apply (flag_tokens_fwd R_copy_flag R_copy_flag_name R_copy_flag_value); try reflexivity; assumption|].
  split; [reflexivity|].
  destruct (flag_parts name value v [] R_copy_flag_name [] R_copy_flag_value p s Hp Hn Hx) as [E1 E2].
  unfold copy_flag_of. cbn [t_children for_each t_rule]. rewrite E1. cbn [bind t_rule]. rewrite E2. reflexivity.
Qed.

Lemma flags_plain p w s l : spaced_reads flag_reads p w s l -> spaced (flag_at unq) p w l.
Proof. induction 1 as [|p k g w x w2 s l Hg Hne Ho [Hx _] Hl IH]; econstructor; eassumption. Qed.

Lemma flags_over p w l k g c t : spaced (flag_at unq) p w l -> gap k g -> g <> [] -> is_blank c = false ->
  is_newline_byte c = false -> spaced_reads flag_reads p w (g ++ c :: t) l.
Proof.
  intros H Hg Hne Hc1 Hc2. induction H as [p|p j g1 w x w2 l Hg1 Hne1 Hx Hl IH]; [constructor|].
  econstructor; [exact Hg1|exact Hne1| | |exact IH].
  - destruct Hx as (? & ? & ? & -> & _). apply (gap_over_solid j); [exact Hg1|apply dash_solid].
  - split; [exact Hx|]. destruct Hl as [q|q j2 g2 w2 y w3 l Hg2 Hne2 Hy Hl].
    + cbn [app]. apply (word_over_gap w k); auto.
    + rewrite <- !app_assoc. apply (word_over_gap w j2); [exact Hg2|exact Hne2|].
      destruct Hy as (? & ? & ? & -> & _). cbn [app]. split; reflexivity.
Qed.

Lemma flags_text_of p w s l : spaced_reads flag_reads p w s l -> ~ flag_ahead s -> flags_before w s.
Proof.
  induction 1 as [|p k g w x w2 s l Hg Hne Ho [Hx Hw] Hl IH]; intros Hs; [constructor; exact Hs|].
  econstructor; [exact Hg|exact Hne|apply (flag_at_text _ _ _ Hx)|exact Hw|apply IH, Hs].
Qed.

(** ** FROM *)

(** An image never reads as a flag. *)
Lemma image_no_flag k g img al x p s : gap k g -> g <> [] -> img <> [] -> Forall (fun c => image_char c = true) img ->
  alias_at p al x -> closed_end s -> valid_utf8 (g ++ img ++ al ++ s) = true -> ~ flag_ahead (g ++ img ++ al ++ s).
Proof.
  intros Hg Hne Hin Hi Hal Hs Hv (k2 & g2 & w & t & E & Hg2 & Hne2 & (name & value & -> & Hn & Hval) & _).
  assert (Eg : g = g2 /\ img ++ al ++ s = ([DASH; DASH] ++ name ++ EQUALS :: value) ++ t).
  { apply (gap_unique_cut k k2); auto.
    - destruct Hi as [|y img Hy Hi]; [congruence|]. apply (gap_over_solid k); [exact Hg|apply image_solid; exact Hy].
    - apply (gap_over_solid k2); [exact Hg2|apply dash_solid]. }
  destruct Eg as [_ Ei]. clear E.
  pose proof (alias_head p al x s Hal Hs) as Hh.
  rewrite <- !app_assoc in Ei. cbn [app] in Ei.
  assert (K : In EQUALS img \/ exists r, al ++ s = EQUALS :: r).
  { revert Hi Hh Ei. clear - Hn. intros Hi Hh Ei. change (DASH :: DASH :: name ++ EQUALS :: value ++ t) with ((DASH :: DASH :: name) ++ EQUALS :: value ++ t) in Ei.
    assert (Hc : Forall (fun c => image_char c = true) (DASH :: DASH :: name)).
    { constructor; [reflexivity|]. constructor; [reflexivity|]. destruct Hn as [_ Hn]. revert Hn. apply Forall_impl. intros a Ha.
      unfold image_char, is_alnum. rewrite Ha. reflexivity. }
    revert Ei. generalize dependent (DASH :: DASH :: name). clear Hn. revert Hi. induction img as [|y img IH]; intros Hi u Hu Ei; cbn [app] in Ei.
    - right. destruct u as [|z u]; [exists (value ++ t); exact Ei|]. cbn [app] in Ei. rewrite Ei in Hh. inversion Hu; congruence.
    - destruct u as [|z u]; cbn [app] in Ei; injection Ei as -> Ei; [left; left; reflexivity|].
      inversion Hi; inversion Hu; subst. destruct (IH ltac:(assumption) u ltac:(assumption) Ei) as [K|K]; [left; right; exact K|right; exact K]. }
  destruct K as [K|(u & K)].
  - rewrite Forall_forall in Hi. apply Hi in K. discriminate.
  - destruct Hal as [[-> _]|(j & g1 & as_ & k1 & g3 & a & -> & Hg1 & Hn1 & _)].
    + apply closed_head in Hs. cbn [app] in K. rewrite K in Hs. destruct Hs; discriminate.
    + apply gap_head in Hg1. destruct g1 as [|y g1]; [congruence|]. cbn [app] in K. injection K as -> _. destruct Hg1; discriminate.
Qed.

Lemma from_reads_fwd p w x s : from_at unq p w x -> closed_end s -> valid_utf8 (w ++ s) = true -> pos p (w ++ s) ->
  exists t, run ctx0 (Call R_from) p (w ++ s) = Done (p + length w) s [t] /\ t_rule t = R_from /\
    forall n, from_of unq src t n = Ok (set_index x n).
Proof.
  intros (kw & fl & k & g & img & al & -> & Hkw & Hfl & Hg & Hne & [Hin Hi] & Himg & Hparsed & Hdig & Hal & Hsp) Hs Hv Hp.
  rewrite <- !app_assoc in *.
  rewrite (Forward3.keyword_valid "from") in Hv by first [assumption | repeat constructor].
  assert (Hflr : spaced_reads flag_reads (p + length kw) fl (g ++ img ++ al ++ s) (from_flags x)).
  { destruct Hi as [|y img Hy Hi]; [congruence|]. apply image_solid in Hy. cbn [app]. apply (flags_over _ _ _ k); auto; apply Hy. }
  rewrite (spaced_reads_valid _ flag_reads_valid _ _ _ _ Hflr) in Hv. pose proof Hv as Hvg.
  rewrite (valid_gap _ _ _ Hg) in Hv. pose proof Hv as Hvi. rewrite (Forward3.class_valid _ _ _ image_ascii Hi) in Hv.
  pose proof Hv as Hva. rewrite (alias_valid _ _ _ _ Hal) in Hv.
  pose proof (pos_app _ _ _ _ Hp) as Hp1. pose proof (pos_app _ _ _ _ Hp1) as Hp2.
  pose proof (pos_app _ _ _ _ Hp2) as Hp3. pose proof (pos_app _ _ _ _ Hp3) as Hp4.
  assert (Hist : gap_stops (img ++ al ++ s)) by (apply (class_stops image_char); [apply image_solid|exact Hin|exact Hi]).
  destruct (spaced_reads_fwd src R_from_flag flag_reads (from_flag_of unq src) from_step add_flag eq_refl
    ltac:(intros [[i a] l] t Ht; unfold SoundInstr.from_step; rewrite Ht; reflexivity)
    (from_step_comments unq src) from_flag_reads_fwd flag_reads_valid _ _ _ _ Hflr Hvg Hp1) as (f1 & E1 & Hf1).
  { apply (flag_ahead_iff R_from_flag R_from_flag_name R_from_flag_value); try reflexivity; [exact Hvg|].
    apply (image_no_flag k g img al (from_alias x) _ s Hg Hne Hin Hi Hal Hs Hvg). }
  destruct (gap_fwd k g (img ++ al ++ s) (p + length kw + length fl) Hg Hne Hist Hvi) as (f2 & E2 & Hc2 & _).
  assert (E3 : run ctx0 (Call R_from_image) (p + length kw + length fl + length g) (img ++ al ++ s) =
    Done (p + length kw + length fl + length g + length img) (al ++ s)
     [Node R_from_image (p + length kw + length fl + length g) (p + length kw + length fl + length g + length img) []]).
  { apply token_fwd; [discriminate|]. cbn [grammar fst snd].
    apply (class_rep1_fwd _ image_char); [reflexivity|apply class_image|exact Hin|exact Hi|apply (alias_head _ _ _ _ Hal Hs)]. }
  destruct (alias_fwd unq src _ _ _ s Hal Hs Hv Hp4) as (f4 & E4 & field & Hf4 & Hfield).
  eexists. split.
  { apply token_fwd; [discriminate|]. cbn [grammar fst snd rule_inner rule_outer].
    rewrite run_seq by reflexivity. rewrite keyword_fwd; [|exact Hkw|reflexivity].
    rewrite run_seq by reflexivity. rewrite E1. rewrite run_seq by reflexivity. rewrite E2.
    rewrite run_seq by reflexivity. rewrite E3. rewrite E4.
    replace (p + length (kw ++ fl ++ g ++ img ++ al)) with (p + length kw + length fl + length g + length img + length al) by (rewrite !app_length; lia).
    reflexivity. }
  split; [reflexivity|]. intros n. unfold from_of.
  match goal with |- context [for_each ?f _ (None, None, [])] => change f with from_step end.
  cbn [t_children app]. rewrite for_each_app, Hf1, fold_add_flag. cbn [bind app].
  rewrite for_each_gap by (assumption || apply from_step_comments). cbn [app for_each].
  change (from_step (None, None, from_flags x) (Node R_from_image (p + length kw + length fl + length g) (p + length kw + length fl + length g + length img) []))
    with (Ok (Some (Node R_from_image (p + length kw + length fl + length g) (p + length kw + length fl + length g + length img) []), @None tree, from_flags x)).
  cbn [bind]. rewrite Hf4. cbn [bind].
  rewrite (parse_string_plain unq src _ _ _ _ _ Hp3) by (apply (class_not_quoted image_char img Hi); reflexivity).
  cbn [bind ss_content]. pose proof (proj2 (image_parse_spec img _) Hparsed) as Ei. rewrite Ei.
  destruct (i_hash (from_image_parsed x)) as [h|] eqn:Eh.
  - rewrite (proj2 (digest_ok_spec h) (Hdig h eq_refl)). cbn [bind]. rewrite Hfield. cbn [bind].
    destruct x; cbn in *. subst. reflexivity.
  - cbn [bind]. rewrite Hfield. cbn [bind]. destruct x; cbn in *. subst. reflexivity.
Qed.
End Flags.

(** The keyword is followed by something the rule for FROM accepts. *)
Lemma from_applies kw u p : keyword "from" kw -> valid_utf8 (kw ++ u) = true ->
  ((exists q s' f, run ctx0 (Call R_from) p (kw ++ u) = Done q s' f) <-> from_begins u).
Proof.
  intros Hkw Hv. rewrite (Forward3.keyword_valid "from") in Hv by first [assumption | repeat constructor]. split.
  - intros (q & s' & f & H). apply token_inv in H; [|discriminate]. destruct H as (f' & H & ->).
    cbn [grammar fst snd rule_inner rule_outer] in H.
    apply seq_inv in H; [|reflexivity]. destruct H as (q1 & s1 & f1 & f2 & H1 & H & ->).
    rewrite keyword_fwd in H1; [|exact Hkw|reflexivity]. inversion H1; subst. clear H1.
    seq_open H Hv H2. apply (flags_text_exact R_from_flag R_from_flag_name R_from_flag_value) in H2; try reflexivity; [|exact Hv].
    destruct H2 as (fl & -> & Hfl). seq_open H Hv0 H3. seq_open H Hv1 H4.
    pose proof (run_strict _ _ _ _ _ _ _ H4 eq_refl) as Hs.
    apply gap_exact_more in H3; [|exact Hv0|intros ->; cbn in Hs; lia]. destruct H3 as (g & -> & -> & _ & Hgn & Hg & Ho).
    apply token_inv in H4; [|discriminate]. destruct H4 as (fi & H4 & ->). cbn [grammar fst snd] in H4.
    apply (class_rep1_inv _ image_char) in H4; [|reflexivity|apply class_image].
    destruct H4 as (img & -> & -> & Hin & Hi & _). destruct Hi as [|c img Hc Hi]; [congruence|]. cbn [app] in *.
    eexists fl, _, g, c, _. split; [reflexivity|]. split; [exact Hfl|]. split; [reflexivity|]. split; [exact Hgn|].
    split; [|exact Hc]. split; [left; eauto|exact Ho].
  - intros (fl & t & g & c & r & -> & Hfl & -> & Hgn & Hg & Hc).
    rewrite flags_before_valid in Hv by exact Hfl.
    destruct (flags_text_fwd R_from_flag R_from_flag_name R_from_flag_value eq_refl eq_refl eq_refl eq_refl eq_refl eq_refl
      _ _ Hfl (p + length kw) Hv) as (f1 & E1).
    destruct (gap_before_fwd g (c :: r) (p + length kw + length fl) Hgn Hg Hv) as (f2 & E2 & _).
    assert (E3 : exists q s' f, run ctx0 (Call R_from_image) (p + length kw + length fl + length g) (c :: r) = Done q s' f).
    { eexists _, _, _. apply token_fwd; [discriminate|]. cbn [grammar fst snd]. rewrite <- (take_drop image_char (c :: r)).
      apply (class_rep1_fwd _ image_char); [reflexivity|apply class_image| |apply take_while_all|].
      - cbn [take_while]. rewrite Hc. discriminate.
      - apply drop_while_head. }
    destruct E3 as (q & s' & f & E3).
    assert (E4 : exists q2 s2 f4, run ctx0 (Opt (Call R_from_alias_outer)) q s' = Done q2 s2 f4).
    { rewrite run_opt by reflexivity. pose proof (run_total ctx0 (Call R_from_alias_outer) q s' eq_refl).
      destruct (run ctx0 (Call R_from_alias_outer) q s'); [eauto|eauto|congruence]. }
    destruct E4 as (q2 & s2 & f4 & E4). eexists _, _, _. apply token_fwd; [discriminate|].
    cbn [grammar fst snd rule_inner rule_outer].
    rewrite run_seq by reflexivity. rewrite keyword_fwd; [|exact Hkw|reflexivity].
    rewrite run_seq by reflexivity. rewrite E1. rewrite run_seq by reflexivity. rewrite E2.
    rewrite run_seq by reflexivity. rewrite E3. rewrite E4. reflexivity.
Qed.
