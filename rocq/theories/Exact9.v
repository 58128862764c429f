(** Where each instruction of a reading is written, and which of the two syntaxes that a
    keyword may be read by applies: see SpecExact.v. *)

From Coq Require Import String Ascii.
From Verif Require Import Bytes BytesFacts Grammar Peg Result Ast Splicer Image Convert ImageFacts Dockerfile SpecDoc DocFacts
  PegFacts SpecImage SpecSyntax SpecClear SpecExact PegRules PegTokens PegQuoted Sound SoundRules SoundInstr SoundDoc
  Forward Forward2 Forward3 ListFacts Forward4 Forward5 Idle Exact Exact2 Exact3 Exact4 Exact5 Exact6 Exact7 Exact8 PropsParse.
Local Open Scope nat_scope.

(** Every instruction of a reading is written somewhere, and only blanks follow it on its line. *)
Lemma document_reads_in unq p w l i : document_reads unq p w l -> In i l ->
  exists pre t s, w = pre ++ t ++ s /\ instruction_reads unq (p + length pre) t s i /\ closed_end s.
Proof.
  intros H. revert i. assert (K : forall p w s l i, line_reads unq p w s l -> In i l ->
    exists pre t b, w = pre ++ t ++ b /\ instruction_reads unq (p + length pre) t (b ++ s) i /\ closed_end (b ++ s)).
  { intros p0 w0 s0 l0 i H0 Hi. destruct H0 as [p0 b s0 Hb Hs|p0 b t s0 Hb Ht Hs|p0 b w0 b2 s0 i0 Hb Hi0 Hb2 Hs]; [contradiction..|].
    destruct Hi as [<-|[]]. exists b, w0, b2. split; [reflexivity|]. split; [exact Hi0|].
    exists b2, s0. split; [reflexivity|]. split; [exact Hb2|apply ends_end; exact Hs]. }
  induction H as [p w l H|p w n w2 l l2 H Hn Hcr H2 IH]; intros i Hi.
  - destruct (K _ _ _ _ _ H Hi) as (pre & t & b & -> & Hr & Hc). exists pre, t, b. rewrite app_nil_r in *. auto.
  - apply in_app_or in Hi. destruct Hi as [Hi|Hi].
    + destruct (K _ _ _ _ _ H Hi) as (pre & t & b & -> & Hr & Hc). exists pre, t, (b ++ n ++ w2).
      split; [rewrite <- !app_assoc; reflexivity|auto].
    + destruct (IH _ Hi) as (pre & t & s & -> & Hr & Hc). exists (w ++ n ++ pre), t, s.
      split; [rewrite <- !app_assoc; reflexivity|]. split; [|exact Hc]. rewrite !app_length, !Nat.add_assoc. exact Hr.
Qed.

Lemma keyword_letters k kw : keyword k kw -> bs k <> [] -> Forall (fun c => is_alpha c = true) (bs k) -> letters kw.
Proof.
  intros E Hne H. unfold keyword in E. rewrite <- E in *. split; [destruct kw; [contradiction|discriminate]|].
  unfold to_lower in H. rewrite Forall_map in H. revert H. apply Forall_impl. intros c. rewrite lower_is_alpha. auto.
Qed.

Lemma bs_inj a b : bs a = bs b -> a = b.
Proof.
  revert b. induction a as [|c a IH]; intros [|d b]; cbn; try discriminate; [reflexivity|]. intros H. injection H as H1 H2.
  f_equal; [|apply IH; exact H2]. rewrite <- (ascii_N_embedding c), <- (ascii_N_embedding d), H1. reflexivity.
Qed.

Section In.
Variable unq : bytes -> option bytes.
Variable src : bytes.
Notation pos := (Sound.pos src).

(** The name of an instruction, and which syntax it is read by *)
Lemma instruction_reads_variant p w s i : instruction_reads unq p w s i -> closed_end s -> valid_utf8 (w ++ s) = true -> pos p (w ++ s) ->
  exists name rest, w = name ++ rest /\ letters name /\ no_letter (rest ++ s) /\ instruction_span i = at_ p w /\
    (forall k, keyword_of i = Some k -> keyword k name) /\
    forall k, keyword k name -> (passed_over k (rest ++ s) <-> exists m, i = IMisc m).
Proof.
  intros H Hs Hv Hp.
  assert (G : forall k r q s' f name u, In (k, r) keyword_rules -> keyword k name -> name ++ u = w ++ s -> no_letter u ->
    run ctx0 (Call r) p (w ++ s) = Done q s' f ->
    letters name /\ forall k', keyword k' name -> ~ passed_over k' u).
  { intros k r q s' f name u Hin Hk E Hu Hrun. rewrite <- E in *.
    assert (Hl : letters name).
    { apply (keyword_letters k); [exact Hk| |]; cbn in Hin;
        (repeat (destruct Hin as [E1|Hin]; [injection E1 as <- <-; first [discriminate|repeat constructor]|])); contradiction. }
    split; [exact Hl|]. intros k' Hk' Hpass. unfold keyword in *. rewrite Hk in Hk'. apply bs_inj in Hk'. subst k'.
    rewrite (Forward3.class_valid _ _ _ alpha_ascii (proj2 Hl)) in Hv.
    apply (rule_passed k r p name u Hin Hk Hv) in Hpass. congruence. }
  assert (I : forall n x, nth_error keyword_rules n = Some x -> In x keyword_rules) by (intros n x; apply nth_error_In).
  assert (F : forall n k r name rest t, nth_error keyword_rules n = Some (k, r) -> keyword k name -> w = name ++ rest -> no_letter (rest ++ s) ->
    run ctx0 (Call r) p (w ++ s) = Done (p + length w) s [t] -> instruction_span i = at_ p w -> keyword_of i = Some k ->
    (forall m, i <> IMisc m) ->
    exists name rest, w = name ++ rest /\ letters name /\ no_letter (rest ++ s) /\ instruction_span i = at_ p w /\
    (forall k, keyword_of i = Some k -> keyword k name) /\
    forall k, keyword k name -> (passed_over k (rest ++ s) <-> exists m, i = IMisc m)).
  { intros n k r name rest t Hn Hk Ew Hnl Hrun Hsp Hko Hm.
    assert (Ew2 : name ++ rest ++ s = w ++ s) by (rewrite Ew, <- app_assoc; reflexivity).
    destruct (G k r _ _ _ name (rest ++ s) (I n _ Hn) Hk Ew2 Hnl Hrun) as [Hl Hno].
    exists name, rest. split; [exact Ew|]. split; [exact Hl|]. split; [exact Hnl|]. split; [exact Hsp|]. split.
    - intros k0 E0. rewrite Hko in E0. injection E0 as <-. exact Hk.
    - intros k0 Hk0. split; [intros Hpass; exfalso; exact (Hno _ Hk0 Hpass)|intros [m Em]; exfalso; exact (Hm m Em)]. }
  destruct i as [x|x|x|x|x|x|x|x|x]; cbn [instruction_reads] in H.
  - pose proof (from_reads_fwd unq src p w x s H Hs Hv Hp) as (t & Hrun & _).
    destruct H as (kw & fl & k & g & img & al & Ew & Hkw & Hfl & Hg & Hne & _ & _ & _ & _ & _ & Hsp).
    apply (F 0 _ _ _ _ _ eq_refl Hkw Ew) with (2 := Hrun); [|exact Hsp|reflexivity|discriminate].
    rewrite <- ?app_assoc. eapply spaced_no_letter; [exact Hfl|]. apply (gap_no_letter k); assumption.
  - pose proof (arg_reads_fwd unq src p w x s H Hs Hv Hp) as (t & Hrun & _).
    destruct H as (kw & k & g & name & rest & Ew & Hkw & Hg & Hne & _ & _ & Hsp & _).
    apply (F 2 _ _ _ _ _ eq_refl Hkw Ew) with (2 := Hrun); [|exact Hsp|reflexivity|discriminate].
    rewrite <- ?app_assoc. apply (gap_no_letter k); assumption.
  - pose proof (label_reads_fwd unq src p w x s H Hs Hv Hp) as (t & Hrun & _).
    destruct H as (kw & r & Ew & Hkw & Hsp & H).
    apply (F 3 _ _ _ _ _ eq_refl Hkw Ew) with (2 := Hrun); [|exact Hsp|reflexivity|discriminate].
    destruct H as [(l & (j & g1 & n & k & g2 & v & -> & Hg & Hne & _) & _)|(pairs & g & -> & Hne & Hpairs & Hg)]; rewrite <- ?app_assoc.
    + apply (gap_no_letter j); assumption.
    + eapply pairs_no_letter; eassumption.
  - pose proof (run_reads_fwd unq src p w x s H Hv Hp) as (t & Hrun & _).
    destruct H as (kw & g & cmd & Ew & Hkw & Hg & Hne & _ & _ & Hsp).
    apply (F 1 _ _ _ _ _ eq_refl Hkw Ew) with (2 := Hrun); [|exact Hsp|reflexivity|discriminate].
    rewrite <- ?app_assoc. apply (gap_no_letter 0); assumption.
  - pose proof (entrypoint_reads_fwd unq src p w x s H Hv Hp) as (t & Hrun & _).
    destruct H as (kw & g & cmd & Ew & Hkw & Hg & Hne & _ & _ & Hsp).
    apply (F 5 _ _ _ _ _ eq_refl Hkw Ew) with (2 := Hrun); [|exact Hsp|reflexivity|discriminate].
    rewrite <- ?app_assoc. apply (gap_no_letter 0); assumption.
  - pose proof (cmd_reads_fwd unq src p w x s H Hv Hp) as (t & Hrun & _).
    destruct H as (kw & g & cmd & Ew & Hkw & Hg & Hne & _ & _ & Hsp).
    apply (F 6 _ _ _ _ _ eq_refl Hkw Ew) with (2 := Hrun); [|exact Hsp|reflexivity|discriminate].
    rewrite <- ?app_assoc. apply (gap_no_letter 0); assumption.
  - pose proof (copy_reads_fwd unq src p w x s H Hs Hv Hp) as (t & Hrun & _).
    destruct H as (kw & fl & paths & Ew & Hkw & Hfl & _ & Hpa & _ & Hsp).
    apply (F 4 _ _ _ _ _ eq_refl Hkw Ew) with (2 := Hrun); [|exact Hsp|reflexivity|discriminate].
    rewrite <- ?app_assoc. eapply spaced_no_letter; [exact Hfl|].
    eapply spaced_reads_no_letter_ne; [exact Hpa|]. destruct (copy_sources x); discriminate.
  - pose proof (env_reads_fwd unq src p w x s H Hs Hv Hp) as (t & Hrun & _).
    destruct H as (kw & r & Ew & Hkw & Hsp & H).
    apply (F 7 _ _ _ _ _ eq_refl Hkw Ew) with (2 := Hrun); [|exact Hsp|reflexivity|discriminate].
    destruct H as [(l & (j & g1 & n & k & g2 & v & -> & Hg & Hne & _) & _)|(pairs & g & -> & Hne & Hpairs & Hg)]; rewrite <- ?app_assoc.
    + apply (gap_no_letter j); assumption.
    + eapply pairs_no_letter; eassumption.
  - destruct H as (name & args & -> & Hl & Hh & Hpass & _ & _ & Hsp). exists name, args.
    split; [reflexivity|]. split; [exact Hl|]. split.
    { destruct args as [|c args]; [|exact Hh]. apply closed_no_letter. exact Hs. }
    split; [exact Hsp|]. split; [discriminate|]. intros k Hk. split; [eauto|]. intros _. apply Hpass. exact Hk.
Qed.
End In.

Lemma parsed_variant unq input d i : valid_utf8 input = true -> parse unq input = Ok d -> In i (d_instructions d) ->
  exists pre name rest, input = pre ++ name ++ rest /\ s_start (instruction_span i) = length pre /\
    letters name /\ no_letter rest /\ (forall k, keyword_of i = Some k -> keyword k name) /\
    forall k, keyword k name -> (passed_over k rest <-> exists m, i = IMisc m).
Proof.
  intros Hv H Hi. pose proof (accepted_exact unq input d Hv H) as R.
  destruct (document_reads_in unq 0 input _ i R Hi) as (pre & t & s & E & Hr & Hc).
  assert (Hp : Sound.pos input (0 + length pre) (t ++ s)) by (apply pos_app; rewrite <- E; reflexivity).
  assert (Hvt : valid_utf8 (t ++ s) = true).
  { rewrite E in Hv. apply (valid_utf8_cut _ Hv pre (t ++ s) eq_refl). pose proof (reads_head_letter _ _ _ _ _ s Hr) as Hh.
    destruct (t ++ s) as [|c u]; [exact I|]. apply alpha_ascii in Hh. unfold is_cont, in_range. apply andb_false_iff. left. apply N.leb_gt. lia. }
  destruct (instruction_reads_variant unq input _ _ _ _ Hr Hc Hvt Hp) as (name & rest & -> & Hl & Hnl & Hsp & Hk & Hm).
  exists pre, name, (rest ++ s). split; [rewrite E, <- app_assoc; reflexivity|].
  split; [rewrite Hsp; reflexivity|]. auto.
Qed.
