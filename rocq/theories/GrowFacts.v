(** One more pair in an instruction, in the readings of SpecExact.v. *)

From Coq Require Import String.
From Verif Require Import Bytes BytesFacts Ast SpecImage SpecSyntax SpecClear SpecExact SpecMove SpecSplice SpecJoin SpecValues SpecKeys SpecGrow
  Forward Forward3 Sound Exact Exact3 ReadsMove ValuesFacts KeysFacts.
From Verif Require Swap SwapParse.
Local Open Scope nat_scope.

(** ** A blank and something solid cannot become part of a line continuation *)

Lemma tail_blank u b n u' : u ++ [SP] = b ++ n ++ u' -> newline n -> exists u0, u = b ++ n ++ u0.
Proof.
  intros E Hn. destruct u' as [|c u'] using rev_ind.
  - exfalso. rewrite app_nil_r in E. destruct Hn.
    + apply app_inj_tail in E. destruct E as [_ E]. discriminate.
    + change [CR; LF] with ([CR] ++ [LF]) in E. rewrite app_assoc in E. apply app_inj_tail in E. destruct E as [_ E]. discriminate.
    + apply app_inj_tail in E. destruct E as [_ E]. discriminate.
  - rewrite !app_assoc in E. apply app_inj_tail in E. destruct E as [E _]. exists u'. rewrite E, <- app_assoc. reflexivity.
Qed.

Lemma blank_solid u t r b n z : begins_solid t -> u ++ SP :: t ++ r = b ++ n ++ z -> blanks b -> newline n -> exists u0, u = b ++ n ++ u0.
Proof.
  intros (c & y & -> & S1 & S2 & _ & S3) E Hb Hn. symmetry in E. replace (u ++ SP :: (c :: y) ++ r) with ((u ++ [SP]) ++ c :: (y ++ r)) in E by (rewrite <- app_assoc; reflexivity).
  destruct (prefix_opaque _ _ _ _ _ _ E S1 S2 Hb Hn) as (u' & E'). apply (tail_blank u b n u'); assumption.
Qed.

Lemma word_over_more w u s t r : begins_solid t -> word_over w (u ++ s) -> follows (u ++ SP :: t ++ r) -> word_over w (u ++ SP :: t ++ r).
Proof.
  intros Ht [_ H2] Hf. split; [exact Hf|]. intros (u0 & b & n & z & -> & E & Hb & Hn). destruct (blank_solid _ _ _ _ _ _ Ht E Hb Hn) as (u1 & ->).
  apply H2. exists u0, b, n, (u1 ++ s). split; [reflexivity|]. split; [rewrite <- !app_assoc; reflexivity|]. auto.
Qed.
Lemma gap_over_more g u s t r : begins_solid t -> gap_over g (u ++ s) -> u <> [] -> gap_over g (u ++ SP :: t ++ r).
Proof.
  intros Ht [H1 H2] Hu. destruct u as [|x u]; [congruence|]. split; [|exact H2]. intros (c & z & E & (b & n & -> & Hb & Hn)). cbn [app] in E. injection E as -> E.
  rewrite <- app_assoc in E. destruct (blank_solid _ _ _ _ _ _ Ht E Hb Hn) as (u1 & ->). apply H1. exists (BSLASH :: b ++ n), (u1 ++ s).
  split; [cbn [app]; rewrite <- !app_assoc; reflexivity|]. exists b, n. auto.
Qed.
Lemma blank_follows r : follows (SP :: r).
Proof. right. left. exists SP, r. split; reflexivity. Qed.

(** ** Pairs *)

Section Pairs.
Context {A : Type}.
Variable at1 : nat -> bytes -> bytes -> A -> Prop.
Variable mv : A -> A.
Variable pl : A -> span.
Variable P : bytes.
Variable new : nat -> A.

Hypothesis carried : forall p w s x, at1 p w s x -> at1 (S (length P) + p) w s (mv x).
Hypothesis past : forall p w u s r x, follows (u ++ SP :: P ++ r) -> apart (w ++ u) (SP :: P ++ r) -> at1 p w (u ++ s) x -> at1 p w (u ++ SP :: P ++ r) x.
Hypothesis item : forall p s, at1 (S p) P s (new p).
Hypothesis placed : forall p w s x, at1 p w s x -> s_end (pl x) = p + length w /\ w <> [].
Hypothesis solid_P : begins_solid P.

Lemma pairs_grown l1 x l2 : forall p w s, spaced_reads at1 p w s (l1 ++ x :: l2) ->
  exists k g w1 w2, w = (g ++ w1) ++ w2 /\ gap k g /\ g <> [] /\ s_end (pl x) = p + length (g ++ w1) /\
  (quotes_apart (g ++ w1) (SP :: P ++ w2 ++ s) ->
    spaced_reads at1 p ((g ++ w1) ++ SP :: P ++ w2) s (l1 ++ x :: new (p + length (g ++ w1)) :: map mv l2)).
Proof.
  induction l1 as [|y l1 IH]; intros p w s H; cbn [app] in H; inversion H as [|? k g wx ? w2 ? ? Hg Hn Ho Hx Hl]; subst; clear H.
  - destruct (placed _ _ _ _ Hx) as [Ep Hw]. exists k, g, wx, w2. split; [rewrite <- app_assoc; reflexivity|]. split; [exact Hg|]. split; [exact Hn|].
    split; [rewrite Ep, app_length; lia|]. intros Hq. cbn [app].
    replace ((g ++ wx) ++ SP :: P ++ w2) with (g ++ wx ++ (SP :: P ++ w2)) by (rewrite <- !app_assoc; reflexivity).
    econstructor; [exact Hg|exact Hn| | |].
    + cbn [app]. rewrite <- app_assoc. exact (gap_over_more g wx (w2 ++ s) P (w2 ++ s) solid_P Ho Hw).
    + cbn [app]. rewrite <- app_assoc. apply (past _ _ [] (w2 ++ s)); [apply blank_follows| |exact Hx]. rewrite app_nil_r. exact (gap_apart k g _ _ Hg Hn Hq).
    + change (SP :: P ++ w2) with ([SP] ++ P ++ w2).
      assert (Gs : gap 0 [SP]) by (constructor; [reflexivity|constructor]).
      econstructor; [exact Gs|discriminate| | |].
      * destruct solid_P as (c & z & -> & Hc). cbn [app]. exact (gap_over_solid 0 [SP] c _ Gs Hc).
      * replace (p + length g + length wx + length [SP]) with (S (p + length (g ++ wx))) by (rewrite app_length; cbn [length]; lia). apply item.
      * replace (p + length g + length wx + length [SP] + length P) with (S (length P) + (p + length g + length wx)) by (cbn [length]; lia).
        assert (C : forall q w0 s0 l0, spaced_reads at1 q w0 s0 l0 -> spaced_reads at1 (S (length P) + q) w0 s0 (map mv l0)).
        { induction 1 as [q s0|q k0 g0 w0 x0 w3 s0 l0 G1 G2 G3 G4 _ G6]; cbn [map]; [constructor|]. econstructor; try eassumption.
          - rewrite <- Nat.add_assoc. apply carried. exact G4.
          - replace (S (length P) + q + length g0 + length w0) with (S (length P) + (q + length g0 + length w0)) by lia. exact G6. }
        apply C. exact Hl.
  - destruct (placed _ _ _ _ Hx) as [_ Hw]. destruct (IH _ _ _ Hl) as (j & h & w1 & w3 & -> & Hj & Hh & Ep & K). exists k, g, (wx ++ h ++ w1), w3.
    split; [rewrite <- !app_assoc; reflexivity|]. split; [exact Hg|]. split; [exact Hn|].
    split; [rewrite Ep, !app_length; lia|]. intros Hq. 
    replace ((g ++ wx ++ h ++ w1) ++ SP :: P ++ w3) with (g ++ wx ++ ((h ++ w1) ++ SP :: P ++ w3)) by (rewrite <- !app_assoc; reflexivity).
    replace (p + length (g ++ wx ++ h ++ w1)) with (p + length g + length wx + length (h ++ w1)) by (rewrite !app_length; lia).
    cbn [app]. assert (Et : forall z, ((h ++ w1) ++ SP :: P ++ w3) ++ z = (h ++ w1) ++ SP :: P ++ (w3 ++ z)) by (intros; rewrite <- !app_assoc; cbn [app]; rewrite <- !app_assoc; reflexivity).
    econstructor; [exact Hg|exact Hn| | |].
    + rewrite Et. replace (wx ++ (h ++ w1) ++ SP :: P ++ w3 ++ s) with ((wx ++ h ++ w1) ++ SP :: P ++ w3 ++ s) by (rewrite <- !app_assoc; reflexivity).
      apply (gap_over_more g (wx ++ h ++ w1) (w3 ++ s)); [exact solid_P| |destruct wx; [congruence|discriminate]].
      replace ((wx ++ h ++ w1) ++ w3 ++ s) with (wx ++ ((h ++ w1) ++ w3) ++ s) by (rewrite <- !app_assoc; reflexivity). exact Ho.
    + rewrite Et. apply (past _ _ (h ++ w1) (w3 ++ s)); [rewrite <- app_assoc; apply (gap_follows j); assumption| |].
      * apply (gap_apart k g _ _ Hg Hn). exact Hq.
      * rewrite <- app_assoc in Hx. exact Hx.
    + apply K. apply quotes_suffix in Hq. apply quotes_suffix in Hq. exact Hq.
Qed.
End Pairs.

Section Grown.
Variable unq : bytes -> option bytes.
Variables t u v y : bytes.

Lemma further_carries n p m : carries (further n) p (n + p) m.
Proof. intros a _. unfold further. lia. Qed.
Lemma pair_length : length (more_text t u) = S (length (t ++ EQUALS :: u)).
Proof. reflexivity. Qed.
Lemma solid_more w z : begins_solid w -> begins_solid (w ++ z).
Proof. intros (c & r & -> & H). exists c, (r ++ z). split; [reflexivity|exact H]. Qed.

(** The byte after the first part is not an equals sign if a gap is there. *)
Lemma gap_no_equals pre w k g z : gap k g -> g <> [] -> nth_error (pre ++ w ++ g ++ z) (length pre + length w) <> Some EQUALS.
Proof.
  intros Hg Hn K. rewrite app_assoc, nth_error_app2 in K by (rewrite app_length; lia). rewrite app_length, Nat.sub_diag in K.
  pose proof (Forward.gap_head _ _ Hg) as H. destruct g as [|c g]; [congruence|]. cbn [app nth_error] in K. injection K as ->. destruct H as [H|H]; discriminate H.
Qed.

(** *** LABEL *)

Section Label.
Hypothesis name : label_name_text unq [EQUALS] t v.
Hypothesis value : exists w, quoted_text u /\ without_breaks u w /\ unq w = Some y.
Let P := t ++ EQUALS :: u.

Lemma label_solid : begins_solid P.
Proof. apply solid_more. eapply label_name_solid; exact name. Qed.

Lemma label_past p w u0 s r x : follows (u0 ++ SP :: P ++ r) -> apart (w ++ u0) (SP :: P ++ r) -> label_pair_reads unq p w (u0 ++ s) x ->
  label_pair_reads unq p w (u0 ++ SP :: P ++ r) x.
Proof.
  intros Hf Hq (n & z & -> & H1 & H2 & H3). exists n, z. split; [reflexivity|]. rewrite <- app_assoc in Hq. cbn [app] in Hq. split; [|split; [|exact H3]].
  - destruct H1 as [H1|(K1 & K2 & K3 & K4)]; [left; exact H1|right]. split; [exact K1|]. split; [|split; [exact K3|exact K4]].
    assert (E : forall q, n ++ EQUALS :: z ++ u0 ++ q = (n ++ EQUALS :: z ++ u0) ++ q).
    { intros q. rewrite <- !app_assoc. cbn [app]. rewrite <- !app_assoc. reflexivity. }
    rewrite E in K2 |- *. apply (not_quoted _ s); [destruct n; discriminate|exact Hq|exact K2].
  - destruct H2 as [H2|(K1 & K2 & K3 & K4)]; [left; exact H2|right]. split; [exact K1|].
    split; [|split; [apply (word_over_more _ _ s); [exact label_solid|exact K3|exact Hf]|exact K4]].
    rewrite app_assoc in K2 |- *. apply (not_quoted _ s); [|apply (apart_later _ _ _ _ Hq); reflexivity|exact K2]. destruct z; [destruct K1; congruence|discriminate].
Qed.

Lemma label_new p s : label_pair_reads unq (S p) P s (new_label p t u v y).
Proof.
  exists t, u. split; [reflexivity|]. split; [|split; [|reflexivity]].
  - apply label_name_text_reads. apply label_ok_any. exact name.
  - left. destruct value as (w & H1 & H2 & H3). exists w, y. auto.
Qed.

Lemma label_end p w s x : label_pair_reads unq p w s x -> s_end (lb_span x) = p + length w /\ w <> [].
Proof. intros (n & z & -> & _ & _ & ->). split; [reflexivity|destruct n; discriminate]. Qed.

Lemma label_grown pre p w s x l1 l l2 : label_reads unq p w s x -> length pre = p -> label_labels x = l1 ++ l :: l2 ->
  nth_error (pre ++ w ++ s) (s_end (ss_span (lb_name l))) = Some EQUALS ->
  exists wa wb, w = wa ++ wb /\ wa <> [] /\ s_end (lb_span l) = p + length wa /\
  (quotes_apart wa (more_text t u ++ wb ++ s) ->
   label_reads unq p (wa ++ more_text t u ++ wb) s (LabelInstruction (longer (length (more_text t u)) (label_span x))
     (l1 ++ l :: new_label (p + length wa) t u v y :: map (move_label (further (length (more_text t u)))) l2))).
Proof.
  intros (kw & r & -> & H1 & H2 & [(l0 & (j & g1 & n & k & g2 & z & -> & K1 & K2 & K3 & K4 & K5 & K6 & K7 & K8 & K9) & E0)|(pairs & g & -> & K1 & K2 & K3)]) Lp El He.
  - exfalso. rewrite E0 in El. destruct l1 as [|l3 l1]; [|destruct l1; discriminate]. injection El as <- _.
    pose proof (label_name_span _ _ _ _ _ K6) as [Ex _]. rewrite Ex in He. cbn [at_ s_end] in He.
    replace (pre ++ (kw ++ g1 ++ n ++ g2 ++ z) ++ s) with (pre ++ (kw ++ g1 ++ n) ++ g2 ++ z ++ s) in He by (rewrite <- !app_assoc; reflexivity).
    replace (p + length kw + length g1 + length n) with (length pre + length (kw ++ g1 ++ n)) in He by (rewrite !app_length; lia).
    exact (gap_no_equals pre (kw ++ g1 ++ n) k g2 (z ++ s) K3 K4 He).
  - rewrite El in K2.
    destruct (pairs_grown (label_pair_reads unq) (move_label (further (S (length P)))) lb_span P (fun q => new_label q t u v y)
      (fun p w s x => label_pair_carried unq (further (S (length P))) p _ (length w) w s x (further_carries _ _ _) (Nat.le_refl _))
      label_past label_new label_end label_solid l1 l l2 _ _ _ K2) as (k & h & w1 & w2 & -> & Hh & Hn & Ep & K).
    assert (Ln : length (kw ++ h ++ w1) = length kw + length (h ++ w1)) by (rewrite !app_length; lia).
    exists (kw ++ h ++ w1), (w2 ++ g). split; [rewrite <- !app_assoc; reflexivity|]. split; [destruct kw, h; congruence || discriminate|].
    split; [rewrite Ep, Ln; lia|]. intros Hq.
    exists kw, (((h ++ w1) ++ SP :: P ++ w2) ++ g). cbn [label_span label_labels]. 
    split; [unfold more_text; fold P; rewrite <- !app_assoc; cbn [app]; rewrite <- !app_assoc; reflexivity|]. split; [exact H1|]. split.
    { rewrite H2. unfold longer, at_. cbn [s_start s_end]. f_equal. rewrite !app_length. lia. }
    right. exists ((h ++ w1) ++ SP :: P ++ w2), g. split; [reflexivity|]. split; [destruct h; [congruence|discriminate]|]. split; [|exact K3].
    rewrite Ln, Nat.add_assoc. apply K. apply quotes_suffix in Hq. unfold more_text in Hq. fold P in Hq. cbn [app] in Hq. rewrite <- !app_assoc in Hq. exact Hq.
Qed.
End Label.

(** *** ENV *)

Section Env.
Hypothesis name : env_name_text t.
Hypothesis same : v = t.
Hypothesis value : quoted_text u /\ unq u = Some y.
Let P := t ++ EQUALS :: u.

Lemma env_solid : begins_solid P.
Proof. apply solid_more. apply env_name_solid. exact name. Qed.

Lemma env_past p w u0 s r x : follows (u0 ++ SP :: P ++ r) -> apart (w ++ u0) (SP :: P ++ r) -> env_pair_reads unq p w (u0 ++ s) x ->
  env_pair_reads unq p w (u0 ++ SP :: P ++ r) x.
Proof.
  intros Hf Hq (n & z & -> & H1 & H2 & H3 & H4). exists n, z. split; [reflexivity|]. rewrite <- app_assoc in Hq. cbn [app] in Hq.
  split; [exact H1|]. split; [exact H2|]. split; [|exact H4].
  destruct H3 as [H3|(K1 & K2 & K3 & K4)]; [left; exact H3|right]. split; [exact K1|].
  split; [|split; [apply (word_over_more _ _ s); [exact env_solid|exact K3|exact Hf]|exact K4]].
  rewrite app_assoc in K2 |- *. apply (not_quoted _ s); [|apply (apart_later _ _ _ _ Hq); reflexivity|exact K2]. destruct z; [destruct K1; congruence|discriminate].
Qed.

Lemma env_new p s : env_pair_reads unq (S p) P s (new_var p t u v y).
Proof.
  exists t, u. split; [reflexivity|]. split; [exact name|]. split; [rewrite same; reflexivity|]. split; [|reflexivity].
  left. destruct value as [H1 H2]. exists y. split; [exact H1|]. split; [exact H2|reflexivity].
Qed.

Lemma env_end p w s x : env_pair_reads unq p w s x -> s_end (ev_span x) = p + length w /\ w <> [].
Proof. intros (n & z & -> & _ & _ & _ & ->). split; [reflexivity|destruct n; discriminate]. Qed.

Lemma env_grown pre p w s x l1 l l2 : env_reads unq p w s x -> length pre = p -> env_vars x = l1 ++ l :: l2 ->
  nth_error (pre ++ w ++ s) (s_end (ss_span (ev_key l))) = Some EQUALS ->
  exists wa wb, w = wa ++ wb /\ wa <> [] /\ s_end (ev_span l) = p + length wa /\
  (quotes_apart wa (more_text t u ++ wb ++ s) ->
   env_reads unq p (wa ++ more_text t u ++ wb) s (EnvInstruction (longer (length (more_text t u)) (env_span x))
     (l1 ++ l :: new_var (p + length wa) t u v y :: map (move_env (further (length (more_text t u)))) l2))).
Proof.
  intros (kw & r & -> & H1 & H2 & [(l0 & (j & g1 & n & k & g2 & z & -> & K1 & K2 & K3 & K4 & K5 & K6 & K7 & K8 & K9) & E0)|(pairs & g & -> & K1 & K2 & K3)]) Lp El He.
  - exfalso. rewrite E0 in El. destruct l1 as [|l3 l1]; [|destruct l1; discriminate]. injection El as <- _.
    rewrite K6 in He. cbn [ss_span at_ s_end] in He.
    replace (pre ++ (kw ++ g1 ++ n ++ g2 ++ z) ++ s) with (pre ++ (kw ++ g1 ++ n) ++ g2 ++ z ++ s) in He by (rewrite <- !app_assoc; reflexivity).
    replace (p + length kw + length g1 + length n) with (length pre + length (kw ++ g1 ++ n)) in He by (rewrite !app_length; lia).
    exact (gap_no_equals pre (kw ++ g1 ++ n) k g2 (z ++ s) K3 K4 He).
  - rewrite El in K2.
    destruct (pairs_grown (env_pair_reads unq) (move_env (further (S (length P)))) ev_span P (fun q => new_var q t u v y)
      (fun p w s x => env_pair_carried unq (further (S (length P))) p _ (length w) w s x (further_carries _ _ _) (Nat.le_refl _))
      env_past env_new env_end env_solid l1 l l2 _ _ _ K2) as (k & h & w1 & w2 & -> & Hh & Hn & Ep & K).
    assert (Ln : length (kw ++ h ++ w1) = length kw + length (h ++ w1)) by (rewrite !app_length; lia).
    exists (kw ++ h ++ w1), (w2 ++ g). split; [rewrite <- !app_assoc; reflexivity|]. split; [destruct kw, h; congruence || discriminate|].
    split; [rewrite Ep, Ln; lia|]. intros Hq.
    exists kw, (((h ++ w1) ++ SP :: P ++ w2) ++ g). cbn [env_span env_vars].
    split; [unfold more_text; fold P; rewrite <- !app_assoc; cbn [app]; rewrite <- !app_assoc; reflexivity|]. split; [exact H1|]. split.
    { rewrite H2. unfold longer, at_. cbn [s_start s_end]. f_equal. rewrite !app_length. lia. }
    right. exists ((h ++ w1) ++ SP :: P ++ w2), g. split; [reflexivity|]. split; [destruct h; [congruence|discriminate]|]. split; [|exact K3].
    rewrite Ln, Nat.add_assoc. apply K. apply quotes_suffix in Hq. unfold more_text in Hq. fold P in Hq. cbn [app] in Hq. rewrite <- !app_assoc in Hq. exact Hq.
Qed.
End Env.

(** *** Both *)

Lemma instruction_grown pre p w s i i' a : instruction_reads unq p w s i -> length pre = p -> adds unq (pre ++ w ++ s) a t u v y i i' ->
  exists wa wb, w = wa ++ wb /\ wa <> [] /\ a = p + length wa /\
  (quotes_apart wa (more_text t u ++ wb ++ s) -> instruction_reads unq p (wa ++ more_text t u ++ wb) s i').
Proof.
  intros R Lp H. destruct H as [x l1 l l2 El Ea He Hn Hu|x l1 e l2 El Ea He Hn Hv Hu Hy]; cbn [instruction_reads] in *.
  - destruct (label_grown Hn Hu pre p w s x l1 l l2 R Lp El He) as (wa & wb & H1 & H2 & H3 & K). exists wa, wb.
    split; [exact H1|]. split; [exact H2|]. split; [congruence|]. intros Hq. replace a with (p + length wa) by congruence. apply K. exact Hq.
  - destruct (env_grown Hn Hv (conj Hu Hy) pre p w s x l1 e l2 R Lp El He) as (wa & wb & H1 & H2 & H3 & K). exists wa, wb.
    split; [exact H1|]. split; [exact H2|]. split; [congruence|]. intros Hq. replace a with (p + length wa) by congruence. apply K. exact Hq.
Qed.
End Grown.
