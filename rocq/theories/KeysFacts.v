(** A name in an instruction replaced by another, in the readings of SpecExact.v. *)

From Coq Require Import String.
From Verif Require Import Bytes BytesFacts Ast SpecImage SpecSyntax SpecClear SpecExact SpecMove SpecSplice SpecJoin SpecValues SpecKeys
  Forward Forward3 Sound Exact Exact3 ReadsMove ValuesFacts.
From Verif Require Swap SwapParse.
Local Open Scope nat_scope.

Lemma word_over_solid_local w u r t r' : u <> [] -> begins_solid t -> word_over w (u ++ r) -> follows (u ++ t ++ r') -> word_over w (u ++ t ++ r').
Proof.
  intros Hu (c & y & -> & S1 & S2 & _ & S3) [_ H2] Hf. split; [exact Hf|].
  intros (u0 & b & n & z & -> & E & Hb & Hn). apply H2. symmetry in E. cbn [app] in E. destruct (prefix_opaque _ _ _ _ _ _ E S1 S2 Hb Hn) as (u' & ->).
  exists u0, b, n, (u' ++ r). split; [reflexivity|]. split; [rewrite <- !app_assoc; reflexivity|]. auto.
Qed.

(** ** Pairs *)

Section Pairs.
Context {A : Type}.
Variable at1 : nat -> bytes -> bytes -> A -> Prop.
Variable mv : A -> A.
Variable pl : A -> span.
Variable put : A -> A.
Variable f : nat -> nat.
Variable sp : span.
Variable t : bytes.
Variable ok : Prop.

Hypothesis carried : forall p p' n w s x, carries f p p' n -> length w <= n -> at1 p w s x -> at1 p' w s (mv x).
Hypothesis local : forall p w u r r' x, ok -> u <> [] -> follows (u ++ t ++ r') -> apart (w ++ u) (t ++ r') -> at1 p w (u ++ r) x -> at1 p w (u ++ t ++ r') x.
Hypothesis item : forall p w s x, at1 p w s x -> pl x = sp -> exists X z, w = X ++ EQUALS :: z /\ X <> [] /\ sp = at_ p X /\
  (ok -> f p = p -> carries f (p + length X) (p + length t) (1 + length z) -> at1 p (t ++ EQUALS :: z) s (mv (put x))).
Hypothesis placed : forall p w s x, at1 p w s x -> p <= s_start (pl x) /\ s_start (pl x) < s_end (pl x) /\ s_end (pl x) <= p + length w.
Hypothesis kept : forall x, pl x <> sp -> put x = x.
Hypothesis solid_t : ok -> begins_solid t.

Lemma pairs_name p w s l : spaced_reads at1 p w s l -> forall x, In x l -> pl x = sp ->
  exists j n0 n X wb, w = (n0 ++ n) ++ X ++ EQUALS :: wb /\ gap j n /\ n <> [] /\ X <> [] /\ sp = at_ (p + length (n0 ++ n)) X /\
  (ok -> quotes_apart (n0 ++ n) (t ++ EQUALS :: wb ++ s) -> carries f p p (length (n0 ++ n)) ->
    carries f (p + length (n0 ++ n) + length X) (p + length (n0 ++ n) + length t) (1 + length wb) ->
    spaced_reads at1 p ((n0 ++ n) ++ t ++ EQUALS :: wb) s (map mv (map put l)) /\ follows (((n0 ++ n) ++ t ++ EQUALS :: wb) ++ s)).
Proof.
  induction 1 as [p s|p k g w x w2 s l Hg Hn Ho Hx Hl IH]; intros y Hy Ey; [destruct Hy|]. destruct Hy as [->|Hy].
  - destruct (item _ _ _ _ Hx Ey) as (X & z & -> & HX & Esp & K). exists k, [], g, X, (z ++ w2). cbn [app].
    split; [rewrite <- !app_assoc; reflexivity|]. split; [exact Hg|]. split; [exact Hn|]. split; [exact HX|]. split; [exact Esp|]. intros Hok Hq C1 C2.
    split; [|rewrite <- !app_assoc; apply (gap_follows k); assumption].
    assert (Put : map put l = l).
    { rewrite <- (map_id l) at 2. apply map_ext_in. intros u Hu. apply kept. intros E.
      pose proof (spaced_placed at1 pl placed _ _ _ _ Hl u Hu) as P.
      rewrite E, Esp in P. unfold at_ in P. cbn [s_start s_end] in P. rewrite app_length in P. cbn [length] in P. lia. }
    cbn [map]. rewrite Put.
    replace (g ++ t ++ EQUALS :: z ++ w2) with (g ++ (t ++ EQUALS :: z) ++ w2) by (rewrite <- !app_assoc; reflexivity).
    econstructor; [exact Hg|exact Hn| | |].
    + destruct (solid_t Hok) as (c & u & Ec & Sc). rewrite Ec. cbn [app]. apply (gap_over_solid k); assumption.
    + apply K; [exact Hok|rewrite (C1 (length g)) by lia; reflexivity|]. eapply carries_less; [exact C2|rewrite app_length; lia].
    + apply (spaced_reads_carried f at1 mv carried _ _ _ _ Hl). rewrite !app_length. cbn [length].
      replace (p + length g + (length X + S (length z))) with (p + length g + length X + S (length z)) by lia.
      replace (p + length g + (length t + S (length z))) with (p + length g + length t + S (length z)) by lia.
      eapply carries_part; [exact C2|rewrite app_length; lia].
  - destruct (IH y Hy Ey) as (j & n0 & n & X & wb & -> & Hj & Hnn & HX & Esp & K). exists j, (g ++ w ++ n0), n, X, wb.
    split; [rewrite <- !app_assoc; reflexivity|]. split; [exact Hj|]. split; [exact Hnn|]. split; [exact HX|].
    split; [rewrite Esp, !app_length; f_equal; lia|]. intros Hok Hq C1 C2.
    split; [|rewrite <- !app_assoc; apply (gap_follows k); assumption].
    assert (Put : put x = x).
    { apply kept. intros E. pose proof (placed _ _ _ _ Hx) as P. rewrite E, Esp in P. unfold at_ in P. cbn [s_start s_end] in P. lia. }
    cbn [map]. rewrite Put.
    assert (Ln : length ((g ++ w ++ n0) ++ n) = length g + length w + length (n0 ++ n)) by (rewrite !app_length; lia).
    rewrite Ln in C1, C2.
    assert (Hne : n0 ++ n <> []) by (destruct n0; [exact Hnn|discriminate]).
    assert (Hq2 : quotes_apart (g ++ (w ++ n0 ++ n)) (t ++ EQUALS :: wb ++ s)) by (rewrite <- !app_assoc in Hq; exact Hq).
    destruct K as [K1 K2]; [exact Hok| | | |].
    { apply quotes_suffix in Hq2. apply quotes_suffix in Hq2. exact Hq2. }
    { rewrite <- Nat.add_assoc. eapply carries_part; [exact C1|lia]. }
    { replace (p + length g + length w + length (n0 ++ n)) with (p + (length g + length w + length (n0 ++ n))) by lia. exact C2. }
    replace (((g ++ w ++ n0) ++ n) ++ t ++ EQUALS :: wb) with (g ++ w ++ ((n0 ++ n) ++ t ++ EQUALS :: wb)) by (rewrite <- !app_assoc; reflexivity).
    econstructor; [exact Hg|exact Hn| | |exact K1].
    + replace (w ++ ((n0 ++ n) ++ t ++ EQUALS :: wb) ++ s) with ((w ++ n0 ++ n) ++ t ++ EQUALS :: wb ++ s) by (rewrite <- !app_assoc; reflexivity).
      apply (gap_over_solid_local g (w ++ n0 ++ n) (X ++ EQUALS :: wb ++ s)); [|destruct w; [exact Hne|discriminate]|exact (solid_t Hok)].
      replace ((w ++ n0 ++ n) ++ X ++ EQUALS :: wb ++ s) with (w ++ ((n0 ++ n) ++ X ++ EQUALS :: wb) ++ s) by (rewrite <- !app_assoc; reflexivity). exact Ho.
    + eapply carried; [|apply Nat.le_refl|].
      * eapply carries_part; [exact C1|lia].
      * assert (Es : forall y, ((n0 ++ n) ++ y ++ EQUALS :: wb) ++ s = (n0 ++ n) ++ y ++ EQUALS :: wb ++ s) by (intros; rewrite <- !app_assoc; reflexivity).
        rewrite Es in Hx, K2 |- *. apply (local _ _ _ (X ++ EQUALS :: wb ++ s)); [exact Hok|exact Hne|exact K2| |exact Hx].
        apply (gap_apart k g _ _ Hg Hn). exact Hq2.
Qed.

End Pairs.

Section Names.
Variable unq : bytes -> option bytes.
Variable f : nat -> nat.
Variable sp : span.
Variables t v : bytes.

Lemma label_name_solid after : label_name_text unq after t v -> begins_solid t.
Proof. intros [(u & Q & _)|(_ & Q & _)]; [apply quoted_solid; exact Q|exact Q]. Qed.
Lemma env_name_solid : env_name_text t -> begins_solid t.
Proof.
  intros [H1 H2]. destruct t as [|c y]; [congruence|]. inversion H2 as [|? ? Hc _]; subst. exists c, y. split; [reflexivity|].
  unfold is_word, is_alnum, is_alpha, is_digit in Hc.
  repeat split; try (intros ->; discriminate Hc); [unfold is_blank|unfold is_newline_byte];
    match goal with |- ?b = false => destruct b eqn:E; [exfalso|reflexivity] end;
    apply orb_prop in E; destruct E as [E|E]; apply N.eqb_eq in E; subst c; discriminate Hc.
Qed.
Lemma arg_name_solid : arg_name_text t -> begins_solid t.
Proof.
  intros (c & y & E & Hc & _). exists c, y. split; [exact E|]. unfold is_alpha in Hc.
  repeat split; try (intros ->; discriminate Hc); [unfold is_blank|unfold is_newline_byte];
    match goal with |- ?b = false => destruct b eqn:E0; [exfalso|reflexivity] end;
    apply orb_prop in E0; destruct E0 as [E0|E0]; apply N.eqb_eq in E0; subst c; discriminate Hc.
Qed.

Lemma label_name_text_reads p s : label_name_text unq s t v -> label_name_reads unq p t s (SpannedString (at_ p t) v).
Proof.
  intros [(u & H1 & H2 & H3)|(H1 & H2 & H3 & H4 & H5)].
  - left. exists u, v. auto.
  - right. split; [exact H1|]. split; [|split; [exact H4|exists v; auto]].
    intros (u & z & E & (q & body & Hq & -> & _)). apply H3. destruct t as [|c y]; [destruct H1; congruence|]. cbn [app] in E. injection E as -> _.
    destruct Hq as [-> | ->]; [left|right]; eexists; reflexivity.
Qed.

Lemma label_name_span p w s x : label_name_reads unq p w s x -> ss_span x = at_ p w /\ w <> [].
Proof.
  intros [H|(H & _ & _ & K)]; [split; [apply (clean_span unq); exact H|destruct H as (u & z & H & _); apply quoted_nonempty; exact H]|].
  split; [apply (string_span unq); exact K|apply H].
Qed.

(** [w] moved, with [t] in place of [X]: both ends *)
Lemma span_put p X z q : f p = p -> carries f (p + length X) (p + length t) q -> length z <= q ->
  move_span f (at_ p (X ++ z)) = at_ p (t ++ z) /\ move_span f (at_ p X) = at_ p t.
Proof.
  intros E C L. unfold move_span, at_. cbn [s_start s_end]. rewrite E, !app_length. rewrite !Nat.add_assoc, (C (length z)) by exact L.
  pose proof (C 0 ltac:(lia)) as K. rewrite !Nat.add_0_r in K. rewrite K. split; reflexivity.
Qed.

(** *** LABEL *)

Definition label_ok : Prop := label_name_text unq [EQUALS] t v.

Lemma label_ok_any y : label_ok -> label_name_text unq (EQUALS :: y) t v.
Proof. intros [H|(H1 & H2 & H3 & H4 & H5)]; [left; exact H|right]. auto 6. Qed.

Lemma label_pair_past p w u r r' x : label_ok -> u <> [] -> follows (u ++ t ++ r') -> apart (w ++ u) (t ++ r') ->
  label_pair_reads unq p w (u ++ r) x -> label_pair_reads unq p w (u ++ t ++ r') x.
Proof.
  intros Hok Hu Hf Hq (n & z & -> & H1 & H2 & H3). exists n, z. split; [reflexivity|]. rewrite <- app_assoc in Hq. cbn [app] in Hq. split; [|split; [|exact H3]].
  - destruct H1 as [H1|(K1 & K2 & K3 & K4)]; [left; exact H1|right]. split; [exact K1|]. split; [|split; [exact K3|exact K4]].
    assert (E : forall y, n ++ EQUALS :: z ++ u ++ y = (n ++ EQUALS :: z ++ u) ++ y).
    { intros y. rewrite <- !app_assoc. cbn [app]. rewrite <- !app_assoc. reflexivity. }
    rewrite E in K2 |- *. apply (not_quoted _ r); [destruct n; discriminate|exact Hq|exact K2].
  - destruct H2 as [H2|(K1 & K2 & K3 & K4)]; [left; exact H2|right]. split; [exact K1|].
    split; [|split; [apply (word_over_solid_local _ _ r); [exact Hu|apply (label_name_solid _ Hok)|exact K3|exact Hf]|exact K4]].
    rewrite app_assoc in K2 |- *. apply (not_quoted _ r); [|apply (apart_later _ _ _ _ Hq); reflexivity|exact K2]. destruct z; [destruct K1; congruence|discriminate].
Qed.

Lemma label_pair_name p w s x : label_pair_reads unq p w s x -> ss_span (lb_name x) = sp ->
  exists X z, w = X ++ EQUALS :: z /\ X <> [] /\ sp = at_ p X /\
  (label_ok -> f p = p -> carries f (p + length X) (p + length t) (1 + length z) -> label_pair_reads unq p (t ++ EQUALS :: z) s (move_label f (rename_label sp v x))).
Proof.
  intros (X & z & -> & H1 & H2 & H3) Esp. destruct (label_name_span _ _ _ _ H1) as [Ev HX]. exists X, z. split; [reflexivity|]. split; [exact HX|].
  split; [congruence|]. intros Hok C0 C. destruct (span_put p X (EQUALS :: z) _ C0 C ltac:(cbn; lia)) as [Fw Fp].
  exists t, z. unfold move_label, rename_label. cbn [lb_span lb_name lb_value]. rewrite put_here by exact Esp. split; [reflexivity|]. split; [|split].
  - unfold move_string. cbn [ss_span ss_content]. rewrite <- Esp, Ev, Fp. apply label_name_text_reads. apply label_ok_any. exact Hok.
  - eapply label_value_carried; [|apply Nat.le_refl|exact H2]. eapply carries_part; [exact C|lia].
  - rewrite H3, Fw. reflexivity.
Qed.

Lemma label_name_placed p w s x : label_pair_reads unq p w s x ->
  p <= s_start (ss_span (lb_name x)) /\ s_start (ss_span (lb_name x)) < s_end (ss_span (lb_name x)) /\ s_end (ss_span (lb_name x)) <= p + length w.
Proof.
  intros (X & z & -> & H1 & _). destruct (label_name_span _ _ _ _ H1) as [-> HX]. unfold at_. cbn [s_start s_end].
  rewrite app_length. destruct X; [congruence|]. cbn [length]. lia.
Qed.

Lemma rename_label_away x : ss_span (lb_name x) <> sp -> rename_label sp v x = x.
Proof. intros H. unfold rename_label. rewrite put_away by exact H. destruct x; reflexivity. Qed.

Lemma label_name_put p w s x l : label_reads unq p w s x -> In l (label_labels x) -> ss_span (lb_name l) = sp ->
  exists wa X wb, w = wa ++ X ++ wb /\ X <> [] /\ wa <> [] /\ sp = at_ (p + length wa) X /\
  (label_name_text unq (wb ++ s) t v -> quotes_apart wa (t ++ wb ++ s) -> fitted f t p wa X wb ->
   label_reads unq p (wa ++ t ++ wb) s (LabelInstruction (move_span f (label_span x)) (map (move_label f) (map (rename_label sp v) (label_labels x))))).
Proof.
  intros (kw & r & -> & H1 & H2 & H3) Hl Esp.
  destruct H3 as [(l0 & (j & g1 & X & k & g2 & z & -> & K1 & K2 & K3 & K4 & K5 & K6 & K7 & K8 & K9) & E0)|(pairs & g & -> & K1 & K2 & K3)].
  - rewrite E0 in *. destruct Hl as [->|[]]. destruct (label_name_span _ _ _ _ K6) as [Ev HX].
    assert (El : length (kw ++ g1) = length kw + length g1) by (rewrite !app_length; lia).
    exists (kw ++ g1), X, (g2 ++ z).
    split; [rewrite <- !app_assoc; reflexivity|]. split; [exact HX|]. split; [destruct kw, g1; try discriminate; congruence|].
    split; [rewrite El, <- Esp, Ev; f_equal; lia|]. intros Hok Hq Ft.
    pose proof (fitted_whole _ _ _ _ _ _ Ft) as Fw. pose proof (fitted_place _ _ _ _ _ _ Ft) as Fp. destruct Ft as [C1 C2].
    rewrite El in Fp, C1, C2. rewrite !Nat.add_assoc in Fp. repeat rewrite <- app_assoc in Fw. repeat rewrite <- app_assoc.
    exists kw, (g1 ++ t ++ g2 ++ z). cbn [label_span label_labels map]. split; [reflexivity|]. split; [exact H1|].
    split; [rewrite H2, Fw; reflexivity|]. left. eexists. split; [|reflexivity].
    exists j, g1, t, k, g2, z. unfold move_label, rename_label. cbn [lb_span lb_name lb_value]. rewrite put_here by exact Esp.
    rewrite <- app_assoc in Hok.
    do 5 (split; [first [reflexivity|assumption]|]). split.
    { destruct (label_name_solid _ Hok) as (c & y & Ey & Sc). rewrite Ey. cbn [app]. apply (gap_over_solid j); assumption. }
    split.
    { unfold move_string. cbn [ss_span ss_content]. rewrite <- Esp, Ev, Fp. apply label_name_text_reads. exact Hok. }
    split; [exact K7|]. rewrite app_length in C2. split.
    { eapply label_value_carried; [|apply Nat.le_refl|exact K8]. rewrite !Nat.add_assoc in C2. eapply carries_part; [exact C2|lia]. }
    rewrite K9. unfold at_, move_span. cbn [s_start s_end]. rewrite !app_length.
    rewrite (C1 (length kw)) by lia. specialize (C2 (length g2 + length z) ltac:(lia)).
    replace (p + length kw + (length g1 + (length X + (length g2 + length z)))) with (p + (length kw + length g1) + length X + (length g2 + length z)) by lia.
    rewrite C2. f_equal. lia.
  - destruct (pairs_name (label_pair_reads unq) (move_label f) (fun y => ss_span (lb_name y)) (rename_label sp v) f sp t label_ok
      (label_pair_carried unq f) label_pair_past label_pair_name label_name_placed rename_label_away (label_name_solid [EQUALS]) _ _ _ _ K2 l Hl Esp)
      as (j & n0 & n & X & wb & -> & Hj & Hn & HX & Esp2 & K).
    exists (kw ++ n0 ++ n), X, (EQUALS :: wb ++ g).
    assert (El : length (kw ++ n0 ++ n) = length kw + length (n0 ++ n)) by (rewrite !app_length; lia).
    split; [rewrite <- !app_assoc; reflexivity|]. split; [exact HX|]. split; [destruct kw, n0; [exact Hn|discriminate..]|]. split; [rewrite El, Esp2; f_equal; lia|].
    intros Hok Hq Ft. pose proof (fitted_whole _ _ _ _ _ _ Ft) as Fw. destruct Ft as [C1 C2]. rewrite El in C1, C2.
    exists kw, (((n0 ++ n) ++ t ++ EQUALS :: wb) ++ g). cbn [label_span label_labels]. split; [rewrite <- !app_assoc; reflexivity|]. split; [exact H1|].
    split; [rewrite H2; etransitivity; [|exact Fw]; f_equal; f_equal; rewrite <- !app_assoc; reflexivity|].
    right. exists ((n0 ++ n) ++ t ++ EQUALS :: wb), g. split; [reflexivity|].
    split; [destruct n0, n; try discriminate; congruence|]. split; [|exact K3].
    apply K.
    + destruct Hok as [Hok|(Q1 & Q2 & Q3 & _ & Q5)]; [left; exact Hok|right]. repeat (split; [assumption|]). split; [right; right; reflexivity|exact Q5].
    + apply quotes_suffix in Hq. cbn [app] in Hq. rewrite <- !app_assoc in Hq. exact Hq.
    + eapply carries_part; [exact C1|lia].
    + rewrite !Nat.add_assoc in C2. eapply carries_less; [exact C2|cbn [length]; rewrite app_length; lia].
Qed.

(** *** ARG *)

Lemma arg_name_put p w s x : arg_reads unq p w s x -> ss_span (arg_name x) = sp ->
  exists wa X wb, w = wa ++ X ++ wb /\ X <> [] /\ wa <> [] /\ sp = at_ (p + length wa) X /\
  (arg_name_text t -> v = t -> fitted f t p wa X wb -> arg_reads unq p (wa ++ t ++ wb) s (move_arg f (rename_arg sp v x))).
Proof.
  intros (kw & k & g & X & rest & -> & H1 & H2 & H3 & H4 & H5 & H6 & H7) Esp.
  assert (HX : X <> []) by (destruct H4 as (c & y & -> & _); discriminate).
  assert (El : length (kw ++ g) = length kw + length g) by (rewrite !app_length; lia).
  exists (kw ++ g), X, rest. split; [rewrite <- !app_assoc; reflexivity|]. split; [exact HX|]. split; [destruct kw, g; try discriminate; congruence|].
  rewrite H5 in Esp. cbn [ss_span] in Esp.
  split; [rewrite El, <- Esp; f_equal; lia|]. intros Hok -> Ft.
  pose proof (fitted_whole _ _ _ _ _ _ Ft) as Fw. pose proof (fitted_place _ _ _ _ _ _ Ft) as Fp. destruct Ft as [C1 C2].
  rewrite El in Fp, C1, C2. rewrite !Nat.add_assoc in Fp. repeat rewrite <- app_assoc in Fw. repeat rewrite <- app_assoc.
  exists kw, k, g, t, rest. unfold move_arg, rename_arg. cbn [arg_name arg_span arg_value]. rewrite put_here by (rewrite H5; exact Esp).
  do 5 (split; [first [reflexivity|assumption]|]). split; [|split].
  - unfold move_string. cbn [ss_span ss_content]. rewrite <- Esp, Fp. reflexivity.
  - rewrite H6. exact Fw.
  - destruct H7 as [[-> ->]|(z & y & -> & K1 & K2 & K3)]; [left; split; reflexivity|right]. exists z, (move_string f y). split; [reflexivity|].
    split; [exact K1|]. split; [|rewrite K3; reflexivity]. eapply string_at_carried; [|apply Nat.le_refl|exact K2].
    rewrite !Nat.add_assoc in C2. eapply carries_part; [exact C2|cbn [length]; lia].
Qed.

(** *** ENV *)

Definition env_ok : Prop := env_name_text t /\ v = t.

Lemma env_pair_past p w u r r' x : env_ok -> u <> [] -> follows (u ++ t ++ r') -> apart (w ++ u) (t ++ r') ->
  env_pair_reads unq p w (u ++ r) x -> env_pair_reads unq p w (u ++ t ++ r') x.
Proof.
  intros Hok Hu Hf Hq (n & z & -> & H1 & H2 & H3 & H4). exists n, z. split; [reflexivity|]. rewrite <- app_assoc in Hq. cbn [app] in Hq.
  split; [exact H1|]. split; [exact H2|]. split; [|exact H4].
  destruct H3 as [H3|(K1 & K2 & K3 & K4)]; [left; exact H3|right]. split; [exact K1|].
  split; [|split; [apply (word_over_solid_local _ _ r); [exact Hu|apply env_name_solid; apply Hok|exact K3|exact Hf]|exact K4]].
  rewrite app_assoc in K2 |- *. apply (not_quoted _ r); [|apply (apart_later _ _ _ _ Hq); reflexivity|exact K2]. destruct z; [destruct K1; congruence|discriminate].
Qed.

Lemma env_pair_name p w s x : env_pair_reads unq p w s x -> ss_span (ev_key x) = sp ->
  exists X z, w = X ++ EQUALS :: z /\ X <> [] /\ sp = at_ p X /\
  (env_ok -> f p = p -> carries f (p + length X) (p + length t) (1 + length z) -> env_pair_reads unq p (t ++ EQUALS :: z) s (move_env f (rename_env sp v x))).
Proof.
  intros (X & z & -> & H1 & H2 & H3 & H4) Esp. rewrite H2 in Esp. cbn [ss_span] in Esp. exists X, z. split; [reflexivity|]. split; [apply H1|].
  split; [congruence|]. intros [Hok ->] C0 C. destruct (span_put p X (EQUALS :: z) _ C0 C ltac:(cbn; lia)) as [Fw Fp].
  exists t, z. unfold move_env, rename_env. cbn [ev_span ev_key ev_value]. rewrite put_here by (rewrite H2; exact Esp).
  split; [reflexivity|]. split; [exact Hok|].
  split; [unfold move_string; cbn [ss_span ss_content]; rewrite <- Esp, Fp; reflexivity|].
  split; [|rewrite H4, Fw; reflexivity].
  assert (Cz : carries f (p + length X + 1) (p + length t + 1) (length z)) by (eapply carries_part; [exact C|lia]).
  destruct H3 as [H3|(Q1 & Q2 & Q3 & Q4)]; [left; eapply quoted_value_carried; [exact Cz|apply Nat.le_refl|exact H3]|right].
  do 3 (split; [assumption|]). eapply plain_value_carried; [exact Cz|apply Nat.le_refl|exact Q4].
Qed.

Lemma env_key_placed p w s x : env_pair_reads unq p w s x ->
  p <= s_start (ss_span (ev_key x)) /\ s_start (ss_span (ev_key x)) < s_end (ss_span (ev_key x)) /\ s_end (ss_span (ev_key x)) <= p + length w.
Proof.
  intros (X & z & -> & [HX _] & H2 & _). rewrite H2. unfold at_. cbn [ss_span s_start s_end].
  rewrite app_length. destruct X; [congruence|]. cbn [length]. lia.
Qed.

Lemma rename_env_away x : ss_span (ev_key x) <> sp -> rename_env sp v x = x.
Proof. intros H. unfold rename_env. rewrite put_away by exact H. destruct x; reflexivity. Qed.

Lemma env_key_put p w s x e : env_reads unq p w s x -> In e (env_vars x) -> ss_span (ev_key e) = sp ->
  exists wa X wb, w = wa ++ X ++ wb /\ X <> [] /\ wa <> [] /\ sp = at_ (p + length wa) X /\
  (env_ok -> quotes_apart wa (t ++ wb ++ s) -> fitted f t p wa X wb ->
   env_reads unq p (wa ++ t ++ wb) s (EnvInstruction (move_span f (env_span x)) (map (move_env f) (map (rename_env sp v) (env_vars x))))).
Proof.
  intros (kw & r & -> & H1 & H2 & H3) Hl Esp.
  destruct H3 as [(e0 & (j & g1 & X & k & g2 & z & -> & K1 & K2 & K3 & K4 & K5 & K6 & K7 & K8 & K9) & E0)|(pairs & g & -> & K1 & K2 & K3)].
  - rewrite E0 in *. destruct Hl as [->|[]]. rewrite K6 in Esp. cbn [ss_span] in Esp.
    assert (El : length (kw ++ g1) = length kw + length g1) by (rewrite !app_length; lia).
    exists (kw ++ g1), X, (g2 ++ z).
    split; [rewrite <- !app_assoc; reflexivity|]. split; [apply K5|]. split; [destruct kw, g1; try discriminate; congruence|].
    split; [rewrite El, <- Esp; f_equal; lia|]. intros [Hok Ev] Hq Ft.
    pose proof (fitted_whole _ _ _ _ _ _ Ft) as Fw. pose proof (fitted_place _ _ _ _ _ _ Ft) as Fp. destruct Ft as [C1 C2].
    rewrite El in Fp, C1, C2. rewrite !Nat.add_assoc in Fp. repeat rewrite <- app_assoc in Fw. repeat rewrite <- app_assoc.
    exists kw, (g1 ++ t ++ g2 ++ z). cbn [env_span env_vars map]. split; [reflexivity|]. split; [exact H1|].
    split; [rewrite H2, Fw; reflexivity|]. left. eexists. split; [|reflexivity].
    exists j, g1, t, k, g2, z. unfold move_env, rename_env. cbn [ev_span ev_key ev_value]. rewrite put_here by (rewrite K6; exact Esp).
    do 6 (split; [first [reflexivity|assumption]|]). split.
    { unfold move_string. cbn [ss_span ss_content]. rewrite <- Esp, Fp, Ev. reflexivity. }
    split; [exact K7|]. rewrite app_length in C2.
    assert (Cz : carries f (p + length kw + length g1 + length X + length g2) (p + length kw + length g1 + length t + length g2) (length z)).
    { rewrite !Nat.add_assoc in C2. eapply carries_part; [exact C2|lia]. }
    split.
    { destruct K8 as [K8|[Q1 Q2]]; [left; eapply quoted_value_carried; [exact Cz|apply Nat.le_refl|exact K8]|right].
      split; [exact Q1|]. eapply breakable_carried; [exact Cz|apply Nat.le_refl|exact Q2]. }
    rewrite K9. unfold at_, move_span. cbn [s_start s_end]. rewrite !app_length.
    replace (p + length kw + length g1) with (p + (length kw + length g1)) by lia.
    rewrite (C1 (length kw + length g1)) by lia. specialize (C2 (length g2 + length z) ltac:(lia)).
    replace (p + (length kw + length g1) + (length X + (length g2 + length z))) with (p + (length kw + length g1) + length X + (length g2 + length z)) by lia.
    rewrite C2. f_equal. lia.
  - destruct (pairs_name (env_pair_reads unq) (move_env f) (fun y => ss_span (ev_key y)) (rename_env sp v) f sp t env_ok
      (env_pair_carried unq f) env_pair_past env_pair_name env_key_placed rename_env_away (fun H => env_name_solid (proj1 H)) _ _ _ _ K2 e Hl Esp)
      as (j & n0 & n & X & wb & -> & Hj & Hn & HX & Esp2 & K).
    exists (kw ++ n0 ++ n), X, (EQUALS :: wb ++ g).
    assert (El : length (kw ++ n0 ++ n) = length kw + length (n0 ++ n)) by (rewrite !app_length; lia).
    split; [rewrite <- !app_assoc; reflexivity|]. split; [exact HX|]. split; [destruct kw, n0; [exact Hn|discriminate..]|]. split; [rewrite El, Esp2; f_equal; lia|].
    intros Hok Hq Ft. pose proof (fitted_whole _ _ _ _ _ _ Ft) as Fw. destruct Ft as [C1 C2]. rewrite El in C1, C2.
    exists kw, (((n0 ++ n) ++ t ++ EQUALS :: wb) ++ g). cbn [env_span env_vars]. split; [rewrite <- !app_assoc; reflexivity|]. split; [exact H1|].
    split; [rewrite H2; etransitivity; [|exact Fw]; f_equal; f_equal; rewrite <- !app_assoc; reflexivity|].
    right. exists ((n0 ++ n) ++ t ++ EQUALS :: wb), g. split; [reflexivity|].
    split; [destruct n0, n; try discriminate; congruence|]. split; [|exact K3].
    apply K; [exact Hok| | |].
    + apply quotes_suffix in Hq. cbn [app] in Hq. rewrite <- !app_assoc in Hq. exact Hq.
    + eapply carries_part; [exact C1|lia].
    + rewrite !Nat.add_assoc in C2. eapply carries_less; [exact C2|cbn [length]; rewrite app_length; lia].
Qed.

(** *** All of them *)

Lemma instruction_renamed p w s i : instruction_reads unq p w s i -> name_place i sp ->
  exists wa X wb, w = wa ++ X ++ wb /\ X <> [] /\ wa <> [] /\ sp = at_ (p + length wa) X /\
  (name_text unq (wb ++ s) i t v -> quotes_apart wa (t ++ wb ++ s) -> fitted f t p wa X wb ->
   instruction_reads unq p (wa ++ t ++ wb) s (move_instruction f (with_name sp v i))).
Proof.
  intros R Hp. destruct i as [x|x|x|x|x|x|x|x|x]; cbn [instruction_reads name_place name_text with_name move_instruction label_span label_labels env_span env_vars] in *;
    try contradiction.
  - destruct (arg_name_put _ _ _ _ R Hp) as (wa & X & wb & H1 & H2 & H3 & H4 & K). exists wa, X, wb. do 4 (split; [assumption|]). intros [Q1 Q2] _ Ft. auto.
  - destruct Hp as (y & Ey & Esp). destruct (label_name_put _ _ _ _ _ R Ey Esp) as (wa & X & wb & H1 & H2 & H3 & H4 & K). exists wa, X, wb. auto 8.
  - destruct Hp as (y & Ey & Esp). destruct (env_key_put _ _ _ _ _ R Ey Esp) as (wa & X & wb & H1 & H2 & H3 & H4 & K). exists wa, X, wb. auto 8.
Qed.

End Names.
