(** A value of an instruction replaced by another, in the readings of SpecExact.v. *)

From Coq Require Import String.
From Verif Require Import Bytes BytesFacts Ast SpecImage SpecSyntax SpecClear SpecExact SpecMove SpecSplice SpecJoin SpecValues
  Forward Forward3 Sound Exact Exact3 ReadsMove.
From Verif Require Swap SwapParse.
Local Open Scope nat_scope.

(** ** What can be seen from afar *)

Definition follows (s : bytes) : Prop :=
  ends_here s \/ (exists c t, s = c :: t /\ is_blank c = true) \/ continues_here s.

Lemma prefix_opaque b n t u c r : b ++ n ++ t = u ++ c :: r -> is_blank c = false -> is_newline_byte c = false -> blanks b -> newline n ->
  exists u', u = b ++ n ++ u'.
Proof.
  intros E Hc1 Hc2 Hb Hn. revert u E. induction b as [|x b IH]; intros u E.
  - destruct Hn; cbn [app] in *; destruct u as [|y u]; cbn [app] in E; try (injection E as <- _; discriminate); injection E as <- E; [eauto| |eauto].
    destruct u as [|y u]; cbn [app] in E; [injection E as <- _; discriminate|]. injection E as <- E. eauto.
  - inversion Hb; subst. destruct u as [|y u]; cbn [app] in E; [injection E as -> _; congruence|]. injection E as <- E.
    destruct (IH ltac:(assumption) u E) as (u' & ->). exists u'. reflexivity.
Qed.

Lemma continues_back u c r r' : is_blank c = false -> is_newline_byte c = false -> c <> BSLASH -> continues_here (u ++ c :: r) -> continues_here (u ++ r').
Proof.
  intros H1 H2 H3 (z & t & E & (b & n & -> & Hb & Hn)). destruct u as [|x u]; cbn [app] in E; [injection E as -> _; congruence|]. injection E as -> E.
  rewrite <- app_assoc in E. symmetry in E. destruct (prefix_opaque _ _ _ _ _ _ E H1 H2 Hb Hn) as (u' & ->).
  exists (BSLASH :: b ++ n), (u' ++ r'). split; [cbn [app]; rewrite <- !app_assoc; reflexivity|]. exists b, n. auto.
Qed.
Lemma continues_local u r r' : continues_here (u ++ EQUALS :: r) -> continues_here (u ++ EQUALS :: r').
Proof. apply continues_back; discriminate || reflexivity. Qed.

Lemma gap_over_local g u r r' : gap_over g (u ++ EQUALS :: r) -> gap_over g (u ++ EQUALS :: r').
Proof.
  intros [H1 H2]. split; [intros K; apply H1; apply (continues_local _ r'); exact K|]. destruct u; exact H2.
Qed.
Lemma gap_over_solid_local g u y y' s : gap_over g (u ++ y) -> u <> [] -> begins_solid y' -> gap_over g (u ++ y' ++ s).
Proof.
  intros [H1 H2] Hu (c & r & -> & S1 & S2 & _ & S3). split; [intros K; apply H1; apply (continues_back _ _ _ _ S1 S2 S3 K)|].
  destruct u; [congruence|]. exact H2.
Qed.

Lemma word_over_local w u r r' : word_over w (u ++ EQUALS :: r) -> word_over w (u ++ EQUALS :: r').
Proof.
  intros [H1 H2]. split.
  - destruct H1 as [H1|[(c & t & E & Hc)|H1]].
    + left. destruct u; exact H1.
    + right. left. destruct u as [|x u]; cbn [app] in *; [injection E as <- _; discriminate|]. injection E as <- _. eauto.
    + right. right. apply (continues_local _ r). exact H1.
  - intros (u0 & b & n & t & -> & E & Hb & Hn). apply H2. symmetry in E. destruct (prefix_opaque _ _ _ _ _ _ E eq_refl eq_refl Hb Hn) as (u' & ->).
    exists u0, b, n, (u' ++ EQUALS :: r). split; [reflexivity|]. split; [rewrite <- !app_assoc; reflexivity|]. auto.
Qed.

(** ** Quotes *)

(** No quote in [y], nor at its beginning, is closed first in [r]. *)
Definition apart (y r : bytes) : Prop := quotes_apart (LF :: y) r.

Lemma quotes_suffix x y r : quotes_apart (x ++ y) r -> quotes_apart y r.
Proof. intros H x0 o q v body rest E. apply (H (x ++ x0)). rewrite E, <- app_assoc. reflexivity. Qed.

Lemma apart_after x o y r : quotes_apart (x ++ o :: y) r -> before_string o = true -> apart y r.
Proof.
  intros H Ho x0 o0 q v body rest E Ho0. destruct x0 as [|c x0]; cbn [app] in E.
  - injection E as <- ->. apply (H x o). reflexivity. exact Ho.
  - injection E as _ ->. apply (H (x ++ o :: x0) o0); [rewrite <- app_assoc; reflexivity|exact Ho0].
Qed.
Lemma apart_later x o y r : apart (x ++ o :: y) r -> before_string o = true -> apart y r.
Proof. intros H. apply (apart_after (LF :: x)). exact H. Qed.

Lemma gap_apart k g y r : gap k g -> g <> [] -> quotes_apart (g ++ y) r -> apart y r.
Proof.
  intros Hg Hne H. destruct (SwapParse.gap_ends k g Hg) as [E|(g0 & o & -> & Ho)]; [congruence|].
  rewrite <- app_assoc in H. apply (apart_after _ _ _ _ H). unfold before_string. unfold Swap.is_break in Ho. rewrite Ho. reflexivity.
Qed.

Lemma not_quoted w r r' : w <> [] -> apart w r' -> ~ quoted_ahead (w ++ r) -> ~ quoted_ahead (w ++ r').
Proof.
  intros Hw H N (t & z & E & (q & body & Hq & -> & Hb & Hv)). apply N. destruct w as [|c w]; [congruence|]. cbn [app] in E. injection E as -> E.
  rewrite <- app_assoc in E. cbn [app] in E. specialize (H [] LF q w body z eq_refl eq_refl Hq Hb E).
  assert (K : exists v2, w = body ++ q :: v2).
  { clear - E H. revert w E H. induction body as [|x body IH]; intros w E H; (destruct w as [|y w]; [cbn in H; lia|]); cbn [app] in E; injection E as -> E.
    - exists w. reflexivity.
    - destruct (IH w E) as (v2 & ->); [cbn in H; lia|]. exists v2. reflexivity. }
  destruct K as (v2 & ->). exists (q :: body ++ [q]), (v2 ++ r). split; [cbn [app]; rewrite <- !app_assoc; reflexivity|]. exists q, body. auto.
Qed.

Lemma quoted_nonempty w : quoted_text w -> w <> [].
Proof. intros (q & body & _ & -> & _). discriminate. Qed.

Lemma quoted_solid w : quoted_text w -> begins_solid w.
Proof. intros (q & body & [-> | ->] & -> & _); cbn [app]; eexists; eexists; (split; [reflexivity|]); repeat split; discriminate. Qed.

(** ** The new word *)

Lemma new_word_not_quoted t s : new_word t -> ~ quoted_ahead (t ++ s).
Proof.
  intros [(Hw & Hq & _) _] (u & z & E & (q & body & Hq' & -> & _)). apply Hq. destruct t as [|c t]; [destruct Hw; congruence|].
  cbn [app] in E. injection E as -> _. destruct Hq' as [-> | ->]; [left|right]; eexists; reflexivity.
Qed.

Lemma new_word_over t s : new_word t -> follows s -> word_over t s.
Proof.
  intros [(Hw & _ & He) _] Hs. split; [exact Hs|]. intros (u & b & n & r & -> & _). apply He. exists u, []. split; [reflexivity|constructor].
Qed.

Lemma closed_follows s : closed_end s -> follows s.
Proof.
  intros (b & t & -> & Hb & Ht). destruct b as [|c b]; [left; apply ends_end; exact Ht|]. right. left. inversion Hb; subst. cbn [app]. eauto.
Qed.

Lemma gap_follows k g s : gap k g -> g <> [] -> follows (g ++ s).
Proof.
  intros Hg Hne. destruct g as [|c g]; [congruence|]. pose proof (gap_head _ _ Hg) as [H| ->]; [right; left; cbn [app]; eauto|].
  right. right. destruct (gap_bslash _ _ Hg) as (c & r & E & Hc). rewrite E. exists c, (r ++ s). rewrite <- app_assoc. auto.
Qed.

Lemma gap_before_follows g s : gap_before g s -> closed_end s -> follows (g ++ s).
Proof.
  intros [H _] Hs. destruct g as [|c0 g0] eqn:Eg; [apply closed_follows; exact Hs|]. rewrite <- Eg in *. assert (Hne : g <> []) by congruence.
  assert (K : forall k, gap k g -> follows (g ++ s)) by (intros k Hk; apply (gap_follows k); assumption).
  destruct H as [(k & Hk)|(_ & [(k & Hk)|(k & g1 & c & j & l & b & t & E & Hg & Hc & _)])]; [eauto..|].
  rewrite E, <- app_assoc. destruct g1 as [|x g1]; [|apply (gap_follows k); [exact Hg|discriminate]].
  right. right. cbn [app]. exists c, ((l ++ b ++ t) ++ s). rewrite <- !app_assoc. auto.
Qed.

(** ** Pairs *)

Section Pairs.
Context {A : Type}.
Variable at1 : nat -> bytes -> bytes -> A -> Prop.
Variable mv : A -> A.
Variable pl : A -> span.
Variable put : A -> A.
Variable f : nat -> nat.
Variable sp : span.
Variable t : bytes.
Variable ok : Prop.

Hypothesis carried : forall p p' n w s x, carries f p p' n -> length w <= n -> at1 p w s x -> at1 p' w s (mv x).
Hypothesis local : forall p w u r r' x, apart (w ++ u ++ [EQUALS]) r' -> at1 p w (u ++ EQUALS :: r) x -> at1 p w (u ++ EQUALS :: r') x.
Hypothesis item : forall p w s x, at1 p w s x -> pl x = sp -> exists n X, w = n ++ EQUALS :: X /\ X <> [] /\ sp = at_ (p + length n + 1) X /\
  (ok -> follows s -> apart (n ++ [EQUALS]) (t ++ s) -> carries f p p (length n + 1) ->
    f (p + length n + 1 + length X) = p + length n + 1 + length t -> at1 p (n ++ EQUALS :: t) s (mv (put x))).
Hypothesis placed : forall p w s x, at1 p w s x -> p <= s_start (pl x) /\ s_start (pl x) < s_end (pl x) /\ s_end (pl x) <= p + length w.
Hypothesis kept : forall x, pl x <> sp -> put x = x.

Lemma spaced_placed p w s l : spaced_reads at1 p w s l -> forall x, In x l -> p <= s_start (pl x) /\ s_start (pl x) < s_end (pl x) /\ s_end (pl x) <= p + length w.
Proof.
  induction 1 as [p s|p k g w x w2 s l Hg Hn Ho Hx _ IH]; intros y Hy; [destruct Hy|]. rewrite !app_length. destruct Hy as [<-|Hy].
  - apply placed in Hx. lia.
  - apply IH in Hy. lia.
Qed.

Lemma spaced_follows p w s l : spaced_reads at1 p w s l -> follows s -> follows (w ++ s).
Proof.
  intros H Hs. destruct H as [p s|p k g w x w2 s l Hg Hn _ _ _]; [exact Hs|]. rewrite <- app_assoc. apply (gap_follows k); assumption.
Qed.

Lemma pairs_value p w s l : spaced_reads at1 p w s l -> forall x, In x l -> pl x = sp ->
  exists n X wb, w = n ++ EQUALS :: X ++ wb /\ X <> [] /\ sp = at_ (p + length n + 1) X /\
  (ok -> follows s -> quotes_apart (n ++ [EQUALS]) (t ++ wb ++ s) -> carries f p p (length n + 1) ->
    carries f (p + length n + 1 + length X) (p + length n + 1 + length t) (length wb) ->
    spaced_reads at1 p (n ++ EQUALS :: t ++ wb) s (map mv (map put l))).
Proof.
  induction 1 as [p s|p k g w x w2 s l Hg Hn Ho Hx Hl IH]; intros y Hy Ey; [destruct Hy|]. destruct Hy as [->|Hy].
  - destruct (item _ _ _ _ Hx Ey) as (n & X & -> & HX & Esp & K). exists (g ++ n), X, w2.
    split; [rewrite <- !app_assoc; reflexivity|]. split; [exact HX|].
    split; [rewrite Esp, app_length; f_equal; lia|]. intros Hok Hs Hq C1 C2.
    assert (Put : map put l = l).
    { rewrite <- (map_id l) at 2. apply map_ext_in. intros z Hz. apply kept. intros E. pose proof (spaced_placed _ _ _ _ Hl z Hz) as P.
      rewrite E, Esp in P. unfold at_ in P. cbn [s_start s_end] in P. rewrite app_length in P. cbn [length] in P.
      destruct X; [congruence|]. cbn [length] in P. lia. }
    rewrite app_length in *. cbn [map]. rewrite Put.
    replace ((g ++ n) ++ EQUALS :: t ++ w2) with (g ++ (n ++ EQUALS :: t) ++ w2) by (rewrite <- !app_assoc; reflexivity).
    econstructor; [exact Hg|exact Hn| | |].
    + rewrite <- app_assoc in Ho |- *. cbn [app] in Ho |- *. apply (gap_over_local _ _ _ _ Ho).
    + apply K; [exact Hok|apply (spaced_follows _ _ _ _ Hl Hs)| | |].
      * apply (gap_apart k g); [exact Hg|exact Hn|]. rewrite <- app_assoc in Hq. exact Hq.
      * eapply carries_part; [exact C1|lia].
      * specialize (C2 0 ltac:(lia)). rewrite !Nat.add_0_r, !Nat.add_assoc in C2. exact C2.
    + apply (spaced_reads_carried f at1 mv carried _ _ _ _ Hl). rewrite app_length. cbn [length].
      replace (p + length g + (length n + S (length X))) with (p + (length g + length n) + 1 + length X) by lia.
      replace (p + length g + (length n + S (length t))) with (p + (length g + length n) + 1 + length t) by lia. exact C2.
  - destruct (IH y Hy Ey) as (n & X & wb & -> & HX & Esp & K). exists (g ++ w ++ n), X, wb.
    split; [rewrite <- !app_assoc; reflexivity|]. split; [exact HX|].
    split; [rewrite Esp, !app_length; f_equal; lia|]. intros Hok Hs Hq C1 C2.
    assert (Put : put x = x).
    { apply kept. intros E. pose proof (placed _ _ _ _ Hx) as P. rewrite E, Esp in P. unfold at_ in P. cbn [s_start s_end] in P. lia. }
    rewrite !app_length in *. cbn [map]. rewrite Put.
    replace ((g ++ w ++ n) ++ EQUALS :: t ++ wb) with (g ++ w ++ (n ++ EQUALS :: t ++ wb)) by (rewrite <- !app_assoc; reflexivity).
    assert (Hq2 : quotes_apart (g ++ (w ++ n ++ [EQUALS])) (t ++ wb ++ s)) by (rewrite <- !app_assoc in Hq; exact Hq).
    econstructor; [exact Hg|exact Hn| | |].
    + rewrite <- app_assoc in Ho |- *. cbn [app] in Ho |- *. rewrite !(app_assoc w n) in *. apply (gap_over_local _ _ _ _ Ho).
    + rewrite <- app_assoc in Hx |- *. cbn [app] in Hx |- *. eapply carried; [|apply Nat.le_refl|].
      * eapply carries_part; [exact C1|lia].
      * apply (local _ _ _ _ _ _) with (2 := Hx). rewrite <- app_assoc. apply (gap_apart k g _ _ Hg Hn). exact Hq2.
    + apply K; [exact Hok|exact Hs| | |].
      * apply quotes_suffix in Hq2. apply quotes_suffix in Hq2. exact Hq2.
      * rewrite <- !Nat.add_assoc. eapply carries_part; [exact C1|lia].
      * replace (p + length g + length w + length n + 1) with (p + (length g + (length w + length n)) + 1) by lia. exact C2.
Qed.

End Pairs.

(** ** The instructions *)

Section Values.
Variable unq : bytes -> option bytes.
Variable f : nat -> nat.
Variable sp : span.
Variables t v : bytes.

(** [f] moves what is around [X], which becomes [t]. *)
Definition fitted (p : nat) (wa X wb : bytes) : Prop :=
  carries f p p (length wa) /\ carries f (p + length wa + length X) (p + length wa + length t) (length wb).

Lemma fitted_whole p wa X wb : fitted p wa X wb -> move_span f (at_ p (wa ++ X ++ wb)) = at_ p (wa ++ t ++ wb).
Proof.
  intros [C1 C2]. unfold move_span, at_. cbn [s_start s_end]. pose proof (C1 0 ltac:(lia)) as K1. pose proof (C2 (length wb) ltac:(lia)) as K2.
  rewrite Nat.add_0_r in K1. rewrite !app_length. replace (p + (length wa + (length X + length wb))) with (p + length wa + length X + length wb) by lia.
  rewrite K1, K2. f_equal. lia.
Qed.
Lemma fitted_place p wa X wb : fitted p wa X wb -> move_span f (at_ (p + length wa) X) = at_ (p + length wa) t.
Proof.
  intros [C1 C2]. unfold move_span, at_. cbn [s_start s_end]. rewrite (C1 (length wa) ltac:(lia)).
  pose proof (C2 0 ltac:(lia)) as K2. rewrite !Nat.add_0_r in K2. rewrite K2. reflexivity.
Qed.

Lemma put_here x : ss_span x = sp -> put_string sp v x = SpannedString sp v.
Proof. intros E. unfold put_string. destruct (span_eq_dec _ _); [reflexivity|contradiction]. Qed.
Lemma put_away x : ss_span x <> sp -> put_string sp v x = x.
Proof. intros E. unfold put_string. destruct (span_eq_dec _ _); [contradiction|reflexivity]. Qed.

Lemma string_span p w x : string_at unq p w x -> ss_span x = at_ p w.
Proof. intros (u & _ & ->). reflexivity. Qed.
Lemma clean_span p w x : clean_quoted_at unq p w x -> ss_span x = at_ p w.
Proof. intros (u & z & _ & _ & _ & ->). reflexivity. Qed.
Lemma label_value_span p w s x : label_value_reads unq p w s x -> ss_span x = at_ p w /\ w <> [].
Proof.
  intros [H|(H & _ & _ & K)]; [split; [apply clean_span; exact H|destruct H as (u & z & H & _); apply quoted_nonempty; exact H]|].
  split; [apply string_span; exact K|apply H].
Qed.

Lemma label_text_reads p s : label_text unq t v -> follows s -> label_value_reads unq p t s (SpannedString (at_ p t) v).
Proof.
  intros [(u & H1 & H2 & H3)|[H1 H2]] Hs.
  - left. exists u, v. auto.
  - right. split; [apply H1|]. split; [apply new_word_not_quoted; exact H1|]. split; [apply new_word_over; assumption|]. exists v. auto.
Qed.

(** *** LABEL *)

Lemma label_pair_local p w u r r' x : apart (w ++ u ++ [EQUALS]) r' -> label_pair_reads unq p w (u ++ EQUALS :: r) x ->
  label_pair_reads unq p w (u ++ EQUALS :: r') x.
Proof.
  intros Hq (n & z & -> & H1 & H2 & H3). exists n, z. split; [reflexivity|]. rewrite <- !app_assoc in Hq. cbn [app] in Hq. split; [|split; [|exact H3]].
  - destruct H1 as [H1|(K1 & K2 & K3 & K4)]; [left; exact H1|right]. split; [exact K1|]. split; [|split; [exact K3|exact K4]].
    assert (E : forall y, n ++ EQUALS :: z ++ u ++ EQUALS :: y = (n ++ EQUALS :: z ++ u ++ [EQUALS]) ++ y).
    { intros y. rewrite <- !app_assoc. cbn [app]. rewrite <- !app_assoc. reflexivity. }
    rewrite E in K2 |- *. apply (not_quoted _ r); [destruct n; discriminate|exact Hq|exact K2].
  - destruct H2 as [H2|(K1 & K2 & K3 & K4)]; [left; exact H2|right]. split; [exact K1|]. split; [|split; [apply (word_over_local _ _ _ _ K3)|exact K4]].
    assert (E : forall y, z ++ u ++ EQUALS :: y = (z ++ u ++ [EQUALS]) ++ y) by (intros y; rewrite <- !app_assoc; reflexivity).
    rewrite E in K2 |- *. apply (not_quoted _ r); [|apply (apart_later _ _ _ _ Hq); reflexivity|exact K2]. destruct z; [destruct K1; congruence|discriminate].
Qed.

Lemma label_pair_item p w s x : label_pair_reads unq p w s x -> ss_span (lb_value x) = sp ->
  exists n X, w = n ++ EQUALS :: X /\ X <> [] /\ sp = at_ (p + length n + 1) X /\
  (label_text unq t v -> follows s -> apart (n ++ [EQUALS]) (t ++ s) -> carries f p p (length n + 1) ->
    f (p + length n + 1 + length X) = p + length n + 1 + length t -> label_pair_reads unq p (n ++ EQUALS :: t) s (move_label f (put_label sp v x))).
Proof.
  intros (n & X & -> & H1 & H2 & H3) Esp. destruct (label_value_span _ _ _ _ H2) as [Ev HX]. exists n, X. split; [reflexivity|]. split; [exact HX|].
  split; [congruence|]. intros Hok Hs Hq C1 C2.
  assert (Ft : fitted p (n ++ [EQUALS]) X []).
  { split; rewrite app_length; cbn [length]; [exact C1|]. intros a La. assert (a = 0) as -> by lia. rewrite !Nat.add_0_r, !Nat.add_assoc. exact C2. }
  pose proof (fitted_whole _ _ _ _ Ft) as Fw. pose proof (fitted_place _ _ _ _ Ft) as Fp. rewrite !app_nil_r in Fw. rewrite app_length in Fp. cbn [length] in Fp.
  rewrite <- !app_assoc in Fw. cbn [app] in Fw. rewrite Nat.add_assoc in Fp.
  exists n, t. unfold move_label, put_label. cbn [lb_span lb_name lb_value]. rewrite put_here by exact Esp.
  split; [reflexivity|]. split; [|split].
  - eapply label_name_carried; [exact C1|lia|]. destruct H1 as [H1|(K1 & K2 & K3 & K4)]; [left; exact H1|right].
    split; [exact K1|]. split; [|split; [exact K3|exact K4]].
    assert (E : forall y, n ++ EQUALS :: y = (n ++ [EQUALS]) ++ y) by (intros y; rewrite <- !app_assoc; reflexivity).
    rewrite E in K2 |- *. apply (not_quoted _ (X ++ s)); [destruct n; discriminate|exact Hq|exact K2].
  - unfold move_string. cbn [ss_span ss_content]. rewrite <- Esp, Ev, Fp. apply label_text_reads; assumption.
  - rewrite H3, Fw. reflexivity.
Qed.

Lemma label_pair_placed p w s x : label_pair_reads unq p w s x ->
  p <= s_start (ss_span (lb_value x)) /\ s_start (ss_span (lb_value x)) < s_end (ss_span (lb_value x)) /\ s_end (ss_span (lb_value x)) <= p + length w.
Proof.
  intros (n & X & -> & _ & H2 & _). destruct (label_value_span _ _ _ _ H2) as [-> HX]. unfold at_. cbn [s_start s_end].
  rewrite app_length. cbn [length]. destruct X; [congruence|]. cbn [length]. lia.
Qed.

Lemma put_label_away x : ss_span (lb_value x) <> sp -> put_label sp v x = x.
Proof. intros H. unfold put_label. rewrite put_away by exact H. destruct x; reflexivity. Qed.

Lemma label_value_put p w s x l : label_reads unq p w s x -> closed_end s -> In l (label_labels x) -> ss_span (lb_value l) = sp ->
  exists wa X wb, w = wa ++ X ++ wb /\ X <> [] /\ wa <> [] /\ sp = at_ (p + length wa) X /\
  (label_text unq t v -> quotes_apart wa (t ++ wb ++ s) -> fitted p wa X wb ->
   label_reads unq p (wa ++ t ++ wb) s (LabelInstruction (move_span f (label_span x)) (map (move_label f) (map (put_label sp v) (label_labels x))))).
Proof.
  intros (kw & r & -> & H1 & H2 & H3) Hs Hl Esp.
  destruct H3 as [(l0 & (j & g1 & a & k & g2 & X & -> & K1 & K2 & K3 & K4 & K5 & K6 & K7 & K8 & K9) & E0)|(pairs & g & -> & K1 & K2 & K3)].
  - rewrite E0 in *. destruct Hl as [->|[]]. destruct (label_value_span _ _ _ _ K8) as [Ev HX].
    assert (El : length (kw ++ g1 ++ a ++ g2) = length kw + length g1 + length a + length g2) by (rewrite !app_length; lia).
    exists (kw ++ g1 ++ a ++ g2), X, []. rewrite app_nil_r.
    split; [rewrite <- !app_assoc; reflexivity|]. split; [exact HX|]. split; [destruct kw, g1; try discriminate; congruence|].
    split; [rewrite El, <- Esp, Ev; f_equal; lia|]. intros Hok Hq Ft.
    pose proof (fitted_whole _ _ _ _ Ft) as Fw. pose proof (fitted_place _ _ _ _ Ft) as Fp. rewrite !app_nil_r in Fw. rewrite <- !app_assoc in *.
    rewrite El in Fp. rewrite !Nat.add_assoc in Fp. destruct Ft as [C1 C2]. rewrite El in C1.
    exists kw, (g1 ++ a ++ g2 ++ t). cbn [label_span label_labels map]. rewrite app_nil_r. split; [reflexivity|]. split; [exact H1|].
    split; [rewrite H2, Fw; reflexivity|]. left. eexists. split; [|reflexivity].
    exists j, g1, a, k, g2, t. unfold move_label, put_label. cbn [lb_span lb_name lb_value]. rewrite put_here by exact Esp.
    assert (So : begins_solid t) by (destruct Hok as [(u & Q & _)|[[_ Q] _]]; [apply quoted_solid; exact Q|exact Q]).
    do 5 (split; [first [reflexivity|assumption]|]). split.
    { apply (gap_over_solid_local g1 (a ++ g2) (X ++ s)) with (s := s) in So; [rewrite <- app_assoc in So; exact So|rewrite <- app_assoc; exact K5|].
      destruct a, g2; try discriminate; congruence. }
    assert (Ap : apart (a ++ g2) (t ++ s)).
    { apply (gap_apart j g1); [assumption..|]. apply quotes_suffix in Hq. exact Hq. }
    split.
    { apply (label_name_carried unq f (p + length kw + length g1) _ (length a)); [|apply Nat.le_refl|].
      - rewrite <- Nat.add_assoc. eapply carries_part; [exact C1|lia].
      - destruct K6 as [K6|(Q1 & Q2 & Q3 & Q4)]; [left; exact K6|right]. split; [exact Q1|]. split; [|split; [destruct g2; [congruence|exact Q3]|exact Q4]].
        rewrite app_assoc. apply (not_quoted _ (X ++ s)); [destruct a, g2; try discriminate; congruence|exact Ap|]. rewrite <- app_assoc. exact Q2. }
    split. { destruct So as (c & y & Ey & Sc). rewrite Ey. cbn [app]. apply (gap_over_solid k); assumption. }
    split.
    { unfold move_string. cbn [ss_span ss_content]. rewrite <- Esp, Ev, Fp. apply label_text_reads; [exact Hok|apply closed_follows; exact Hs]. }
    rewrite K9. unfold at_. unfold move_span. cbn [s_start s_end]. rewrite !app_length.
    rewrite (C1 (length kw)) by lia. specialize (C2 0 ltac:(lia)). rewrite El in C2. rewrite !Nat.add_0_r in C2.
    replace (p + length kw + (length g1 + (length a + (length g2 + length X)))) with (p + (length kw + length g1 + length a + length g2) + length X) by lia.
    rewrite C2. f_equal. lia.
  - destruct (pairs_value (label_pair_reads unq) (move_label f) (fun y => ss_span (lb_value y)) (put_label sp v) f sp t (label_text unq t v)
      (label_pair_carried unq f) label_pair_local label_pair_item label_pair_placed put_label_away _ _ _ _ K2 l Hl Esp) as (n & X & wb & -> & HX & Esp2 & K).
    exists (kw ++ n ++ [EQUALS]), X, (wb ++ g). rewrite <- !app_assoc. cbn [app]. rewrite <- !app_assoc.
    assert (El : length (kw ++ n ++ [EQUALS]) = length kw + length n + 1) by (rewrite !app_length; cbn [length]; lia).
    split; [reflexivity|]. split; [exact HX|]. split; [destruct kw, n; discriminate|]. split; [rewrite El, Esp2; f_equal; lia|].
    intros Hok Hq Ft. pose proof (fitted_whole _ _ _ _ Ft) as Fw. rewrite <- !app_assoc in Fw. cbn [app] in Fw.
    destruct Ft as [C1 C2]. rewrite El in C1, C2. rewrite app_length in C2.
    exists kw, (n ++ EQUALS :: t ++ wb ++ g). cbn [label_span label_labels]. split; [reflexivity|]. split; [exact H1|].
    split; [rewrite H2; rewrite <- !app_assoc; cbn [app]; rewrite <- !app_assoc; exact Fw|].
    right. exists (n ++ EQUALS :: t ++ wb), g. split; [rewrite <- !app_assoc; cbn [app]; rewrite <- !app_assoc; reflexivity|].
    split; [destruct n; discriminate|]. split; [|exact K3].
    apply K; [exact Hok|apply gap_before_follows; assumption| | |].
    + apply quotes_suffix in Hq. exact Hq.
    + eapply carries_part; [exact C1|lia].
    + rewrite !Nat.add_assoc in C2. eapply carries_less; [exact C2|lia].
Qed.

(** *** ARG *)

Lemma arg_value_put p w s x y : arg_reads unq p w s x -> closed_end s -> arg_value x = Some y -> ss_span y = sp ->
  exists wa X wb, w = wa ++ X ++ wb /\ X <> [] /\ wa <> [] /\ sp = at_ (p + length wa) X /\
  (arg_text unq t v -> fitted p wa X wb ->
   arg_reads unq p (wa ++ t ++ wb) s (move_arg f (ArgInstruction (arg_span x) (arg_name x) (option_map (put_string sp v) (arg_value x))))).
Proof.
  intros (kw & k & g & name & rest & -> & H1 & H2 & H3 & H4 & H5 & H6 & H7) Hs Ey Esp.
  destruct H7 as [[_ K]|(X & z & -> & K1 & K2 & K3)]; [congruence|]. assert (z = y) as -> by congruence.
  pose proof (string_span _ _ _ K2) as Ev.
  assert (HX : X <> []) by (destruct K1 as [K1|(K1 & _)]; [apply quoted_nonempty; exact K1|apply K1]).
  assert (El : length (kw ++ g ++ name ++ [EQUALS]) = length kw + length g + length name + 1) by (rewrite !app_length; cbn [length]; lia).
  exists (kw ++ g ++ name ++ [EQUALS]), X, []. rewrite app_nil_r.
  split; [rewrite <- !app_assoc; reflexivity|]. split; [exact HX|]. split; [destruct kw, g, name; discriminate|].
  split; [rewrite El, <- Esp, Ev; f_equal; lia|]. intros (Hok & Hv) Ft.
  pose proof (fitted_whole _ _ _ _ Ft) as Fw. pose proof (fitted_place _ _ _ _ Ft) as Fp. rewrite !app_nil_r in Fw. rewrite <- !app_assoc in *. cbn [app] in *.
  rewrite El in Fp. rewrite !Nat.add_assoc in Fp. destruct Ft as [C1 C2]. rewrite El in C1. rewrite app_nil_r.
  exists kw, k, g, name, (EQUALS :: t). unfold move_arg. cbn [arg_name arg_span arg_value]. rewrite Ey. cbn [option_map].
  do 5 (split; [first [reflexivity|assumption]|]). split; [|split].
  - rewrite H5. apply (name_carried f _ _ (length name)); [|lia]. rewrite <- !Nat.add_assoc. eapply carries_part; [exact C1|lia].
  - rewrite H6. exact Fw.
  - right. exists t, (SpannedString (at_ (p + length kw + length g + length name + 1) t) v). split; [reflexivity|]. split.
    + destruct Hok as [Q|Q]; [left; exact Q|right]. split; [apply Q|]. split; [apply new_word_not_quoted; exact Q|].
      apply new_word_over; [exact Q|apply closed_follows; exact Hs].
    + split; [exists v; auto|]. rewrite put_here by exact Esp. unfold move_string. cbn [ss_span ss_content]. rewrite <- Esp, Ev, Fp. reflexivity.
Qed.

(** *** ENV *)

Definition pair_text : Prop := (quoted_text t /\ unq t = Some v) \/ (new_word t /\ v = t).

Lemma env_value_span p w s x :
  quoted_value_at unq p w x \/ (word w /\ ~ quoted_ahead (w ++ s) /\ word_over w s /\ plain_value_at p w w x) -> br_span x = at_ p w /\ w <> [].
Proof.
  intros [(z & H1 & H2 & ->)|(H & _ & _ & ->)]; (split; [reflexivity|]); [apply quoted_nonempty; exact H1|apply H].
Qed.

Lemma put_value_here x : br_span x = sp -> put_value sp v x = BreakableString sp [BString (SpannedString sp v)].
Proof. intros E. unfold put_value. destruct (span_eq_dec _ _); [reflexivity|contradiction]. Qed.
Lemma put_env_away x : br_span (ev_value x) <> sp -> put_env sp v x = x.
Proof. intros H. unfold put_env, put_value. destruct (span_eq_dec _ _); [contradiction|]. destruct x; reflexivity. Qed.

Lemma env_pair_local p w u r r' x : apart (w ++ u ++ [EQUALS]) r' -> env_pair_reads unq p w (u ++ EQUALS :: r) x ->
  env_pair_reads unq p w (u ++ EQUALS :: r') x.
Proof.
  intros Hq (n & z & -> & H1 & H2 & H3 & H4). exists n, z. split; [reflexivity|]. rewrite <- !app_assoc in Hq. cbn [app] in Hq.
  split; [exact H1|]. split; [exact H2|]. split; [|exact H4].
  destruct H3 as [H3|(K1 & K2 & K3 & K4)]; [left; exact H3|right]. split; [exact K1|]. split; [|split; [apply (word_over_local _ _ _ _ K3)|exact K4]].
  assert (E : forall y, z ++ u ++ EQUALS :: y = (z ++ u ++ [EQUALS]) ++ y) by (intros y; rewrite <- !app_assoc; reflexivity).
  rewrite E in K2 |- *. apply (not_quoted _ r); [|apply (apart_later _ _ _ _ Hq); reflexivity|exact K2]. destruct z; [destruct K1; congruence|discriminate].
Qed.

Lemma env_pair_item p w s x : env_pair_reads unq p w s x -> br_span (ev_value x) = sp ->
  exists n X, w = n ++ EQUALS :: X /\ X <> [] /\ sp = at_ (p + length n + 1) X /\
  (pair_text -> follows s -> apart (n ++ [EQUALS]) (t ++ s) -> carries f p p (length n + 1) ->
    f (p + length n + 1 + length X) = p + length n + 1 + length t -> env_pair_reads unq p (n ++ EQUALS :: t) s (move_env f (put_env sp v x))).
Proof.
  intros (n & X & -> & H1 & H2 & H3 & H4) Esp. destruct (env_value_span _ _ _ _ H3) as [Ev HX]. exists n, X. split; [reflexivity|]. split; [exact HX|].
  split; [congruence|]. intros Hok Hs Hq C1 C2.
  assert (Ft : fitted p (n ++ [EQUALS]) X []).
  { split; rewrite app_length; cbn [length]; [exact C1|]. intros a La. assert (a = 0) as -> by lia. rewrite !Nat.add_0_r, !Nat.add_assoc. exact C2. }
  pose proof (fitted_whole _ _ _ _ Ft) as Fw. pose proof (fitted_place _ _ _ _ Ft) as Fp. rewrite !app_nil_r in Fw. rewrite app_length in Fp. cbn [length] in Fp.
  rewrite <- !app_assoc in Fw. cbn [app] in Fw. rewrite Nat.add_assoc in Fp.
  exists n, t. unfold move_env, put_env. cbn [ev_span ev_key ev_value]. rewrite put_value_here by exact Esp.
  split; [reflexivity|]. split; [exact H1|]. split; [rewrite H2; apply (name_carried f p p (length n + 1)); [exact C1|lia]|]. split.
  - unfold move_breakable, move_component, move_string. cbn [br_span br_components map ss_span ss_content]. rewrite <- Esp, Ev, Fp.
    destruct Hok as [[Q1 Q2]|[Q1 ->]]; [left; exists v; split; [exact Q1|]; split; [exact Q2|reflexivity]|right].
    split; [apply Q1|]. split; [apply new_word_not_quoted; exact Q1|]. split; [apply new_word_over; assumption|reflexivity].
  - rewrite H4, Fw. reflexivity.
Qed.

Lemma env_pair_placed p w s x : env_pair_reads unq p w s x ->
  p <= s_start (br_span (ev_value x)) /\ s_start (br_span (ev_value x)) < s_end (br_span (ev_value x)) /\ s_end (br_span (ev_value x)) <= p + length w.
Proof.
  intros (n & X & -> & _ & _ & H2 & _). destruct (env_value_span _ _ _ _ H2) as [-> HX]. unfold at_. cbn [s_start s_end].
  rewrite app_length. cbn [length]. destruct X; [congruence|]. cbn [length]. lia.
Qed.

Lemma shell_nonempty p w s l : shell_reads p w s l -> w <> [].
Proof.
  assert (C : forall b u, comment_text u -> b ++ u <> []) by (intros b u (z & -> & _) E; apply app_eq_nil in E; destruct E; discriminate).
  intros [p0 w0 s0 H _ _ _|p0 w0 c w2 s0 l0 H _ _ _|p0 b u _ H|p0 b u n s0 _ H _ _ _|p0 b u n w0 s0 l0 _ H _ _].
  - apply H.
  - destruct H as (H & _). destruct w0; [congruence|discriminate].
  - apply C. exact H.
  - rewrite app_assoc. intros E. apply app_eq_nil in E. destruct E as [E _]. exact (C _ _ H E).
  - rewrite app_assoc. intros E. apply app_eq_nil in E. destruct E as [E _]. exact (C _ _ H E).
Qed.

Lemma env_value_put p w s x e : env_reads unq p w s x -> closed_end s -> In e (env_vars x) -> br_span (ev_value e) = sp ->
  exists wa X wb, w = wa ++ X ++ wb /\ X <> [] /\ wa <> [] /\ sp = at_ (p + length wa) X /\
  (forall P, env_text unq (P ++ wa) t v -> quotes_apart wa (t ++ wb ++ s) -> fitted p wa X wb ->
   env_reads unq p (wa ++ t ++ wb) s (EnvInstruction (move_span f (env_span x)) (map (move_env f) (map (put_env sp v) (env_vars x))))).
Proof.
  intros (kw & r & -> & H1 & H2 & H3) Hs Hl Esp.
  destruct H3 as [(e0 & (j & g1 & a & k & g2 & X & -> & K1 & K2 & K3 & K4 & K5 & K6 & K7 & K8 & K9) & E0)|(pairs & g & -> & K1 & K2 & K3)].
  - rewrite E0 in *. destruct Hl as [->|[]].
    assert (Ev : br_span (ev_value e) = at_ (p + length kw + length g1 + length a + length g2) X /\ X <> []).
    { destruct K8 as [(z & Q & _ & ->)|(_ & l & Q & ->)]; (split; [reflexivity|]); [apply quoted_nonempty; exact Q|apply (shell_nonempty _ _ _ _ Q)]. }
    destruct Ev as [Ev HX].
    assert (El : length (kw ++ g1 ++ a ++ g2) = length kw + length g1 + length a + length g2) by (rewrite !app_length; lia).
    exists (kw ++ g1 ++ a ++ g2), X, []. rewrite app_nil_r.
    split; [rewrite <- !app_assoc; reflexivity|]. split; [exact HX|]. split; [destruct kw, g1; try discriminate; congruence|].
    split; [rewrite El, <- Esp, Ev; f_equal; lia|]. intros P Hok Hq Ft.
    assert (Q : quoted_text t /\ unq t = Some v).
    { destruct Hok as [Q|(_ & _ & z & E)]; [exact Q|exfalso]. destruct (SwapParse.gap_ends k g2 K3) as [Eg|(g0 & o & -> & Ho)]; [congruence|].
      rewrite !app_assoc in E. apply app_inj_tail in E. destruct E as [_ ->]. discriminate. }
    clear Hok. destruct Q as [Q1 Q2].
    pose proof (fitted_whole _ _ _ _ Ft) as Fw. pose proof (fitted_place _ _ _ _ Ft) as Fp. rewrite !app_nil_r in Fw. rewrite <- !app_assoc in *.
    rewrite El in Fp. rewrite !Nat.add_assoc in Fp. destruct Ft as [C1 C2]. rewrite El in C1.
    exists kw, (g1 ++ a ++ g2 ++ t). cbn [env_span env_vars map]. rewrite app_nil_r. split; [reflexivity|]. split; [exact H1|].
    split; [rewrite H2, Fw; reflexivity|]. left. eexists. split; [|reflexivity].
    exists j, g1, a, k, g2, t. unfold move_env, put_env. cbn [ev_span ev_key ev_value]. rewrite put_value_here by exact Esp.
    do 6 (split; [first [reflexivity|assumption]|]). split.
    { rewrite K6. apply (name_carried f _ _ (length a)); [|lia]. rewrite <- !Nat.add_assoc. eapply carries_part; [exact C1|lia]. }
    split. { destruct (quoted_solid _ Q1) as (c & y & Ey & Sc). rewrite Ey. cbn [app]. apply (gap_over_solid k); assumption. }
    split.
    { left. exists v. split; [exact Q1|]. split; [exact Q2|]. unfold move_breakable, move_component, move_string.
      cbn [br_span br_components map ss_span ss_content]. rewrite <- Esp, Ev, Fp. reflexivity. }
    rewrite K9. unfold at_. unfold move_span. cbn [s_start s_end]. rewrite !app_length.
    replace (p + length kw + length g1) with (p + (length kw + length g1)) by lia.
    rewrite (C1 (length kw + length g1)) by lia. specialize (C2 0 ltac:(lia)). rewrite El in C2. rewrite !Nat.add_0_r in C2.
    replace (p + (length kw + length g1) + (length a + (length g2 + length X))) with (p + (length kw + length g1 + length a + length g2) + length X) by lia.
    rewrite C2. f_equal. lia.
  - destruct (pairs_value (env_pair_reads unq) (move_env f) (fun y => br_span (ev_value y)) (put_env sp v) f sp t pair_text
      (env_pair_carried unq f) env_pair_local env_pair_item env_pair_placed put_env_away _ _ _ _ K2 e Hl Esp) as (n & X & wb & -> & HX & Esp2 & K).
    exists (kw ++ n ++ [EQUALS]), X, (wb ++ g). rewrite <- !app_assoc. cbn [app]. rewrite <- !app_assoc.
    assert (El : length (kw ++ n ++ [EQUALS]) = length kw + length n + 1) by (rewrite !app_length; cbn [length]; lia).
    split; [reflexivity|]. split; [exact HX|]. split; [destruct kw, n; discriminate|]. split; [rewrite El, Esp2; f_equal; lia|].
    intros P Hok Hq Ft. pose proof (fitted_whole _ _ _ _ Ft) as Fw. rewrite <- !app_assoc in Fw. cbn [app] in Fw.
    destruct Ft as [C1 C2]. rewrite El in C1, C2. rewrite app_length in C2.
    exists kw, (n ++ EQUALS :: t ++ wb ++ g). cbn [env_span env_vars]. split; [reflexivity|]. split; [exact H1|].
    split; [rewrite H2; rewrite <- !app_assoc; cbn [app]; rewrite <- !app_assoc; exact Fw|].
    right. exists (n ++ EQUALS :: t ++ wb), g. split; [rewrite <- !app_assoc; cbn [app]; rewrite <- !app_assoc; reflexivity|].
    split; [destruct n; discriminate|]. split; [|exact K3].
    apply K; [destruct Hok as [Q|(Q1 & Q2 & _)]; [left; exact Q|right; auto]|apply gap_before_follows; assumption| | |].
    + apply quotes_suffix in Hq. exact Hq.
    + eapply carries_part; [exact C1|lia].
    + rewrite !Nat.add_assoc in C2. eapply carries_less; [exact C2|lia].
Qed.

(** *** Exec forms *)

Lemma element_here p : element_text unq t v -> string_at unq p t (SpannedString (at_ p t) v).
Proof. intros [H1 H2]. exists v. split; [|reflexivity]. left. split; [apply quoted_begins; exact H1|exact H2]. Qed.

Lemma more_placed p w l : more_strings unq p w l -> forall x, In x l -> p <= s_start (ss_span x) /\ s_start (ss_span x) < s_end (ss_span x).
Proof.
  induction 1 as [p|p j g1 k g2 w x w2 l H1 H2 H3 H4 _ IH]; intros y Hy; [destruct Hy|]. destruct Hy as [<-|Hy].
  - rewrite (string_span _ _ _ H4). apply quoted_nonempty in H3. unfold at_. cbn [s_start s_end]. destruct w; [congruence|]. cbn [length]. lia.
  - apply IH in Hy. lia.
Qed.

Lemma more_put p w l : more_strings unq p w l -> forall x, In x l -> ss_span x = sp ->
  exists wa X wb, w = wa ++ X ++ wb /\ X <> [] /\ wa <> [] /\ sp = at_ (p + length wa) X /\
  (element_text unq t v -> fitted p wa X wb -> more_strings unq p (wa ++ t ++ wb) (map (move_string f) (map (put_string sp v) l))).
Proof.
  induction 1 as [p|p j g1 k g2 w x w2 l H1 H2 H3 H4 Hl IH]; intros y Hy Esp; [destruct Hy|]. pose proof (string_span _ _ _ H4) as Ev. destruct Hy as [->|Hy].
  - assert (El : length (g1 ++ COMMA :: g2) = length g1 + 1 + length g2) by (rewrite app_length; cbn [length]; lia).
    exists (g1 ++ COMMA :: g2), w, w2. split; [rewrite <- app_assoc; reflexivity|]. split; [apply quoted_nonempty; exact H3|].
    split; [destruct g1; discriminate|]. split; [rewrite El, <- Esp, Ev; f_equal; lia|]. intros Hok Ft.
    pose proof (fitted_place _ _ _ _ Ft) as Fp. rewrite El in Fp. destruct Ft as [C1 C2]. rewrite El in C1, C2. cbn [map].
    replace (map (put_string sp v) l) with l.
    2:{ rewrite <- (map_id l) at 1. apply map_ext_in. intros z Hz. symmetry. apply put_away. intros E. pose proof (more_placed _ _ _ Hl z Hz) as P.
        rewrite E, <- Esp, Ev in P. unfold at_ in P. cbn [s_start s_end] in P. apply quoted_nonempty in H3. destruct w; [congruence|]. cbn [length] in P. lia. }
    rewrite <- app_assoc. cbn [app]. rewrite put_here by exact Esp. unfold move_string at 1. cbn [ss_span ss_content]. rewrite <- Esp, Ev.
    rewrite !Nat.add_assoc in Fp. rewrite Fp. rewrite !Nat.add_assoc in C2.
    econstructor; [exact H1|exact H2|apply Hok|apply element_here; exact Hok|]. apply (more_strings_carried unq f _ _ _ Hl). exact C2.
  - destruct (IH y Hy Esp) as (wa & X & wb & -> & HX & Hwa & Esp2 & K). exists (g1 ++ COMMA :: g2 ++ w ++ wa), X, wb.
    assert (El : length (g1 ++ COMMA :: g2 ++ w ++ wa) = length g1 + 1 + length g2 + length w + length wa) by (rewrite app_length; cbn [length]; rewrite !app_length; lia).
    split; [rewrite <- !app_assoc; cbn [app]; rewrite <- !app_assoc; reflexivity|]. split; [exact HX|].
    split; [destruct g1; discriminate|]. split; [rewrite El, Esp2; f_equal; lia|]. intros Hok Ft. destruct Ft as [C1 C2]. rewrite El in C1, C2.
    cbn [map]. rewrite put_away.
    2:{ intros E. rewrite E, Esp2 in Ev. unfold at_ in Ev. injection Ev as E1 _. apply quoted_nonempty in H3. destruct w; [congruence|]. cbn [length] in E1. lia. }
    rewrite <- app_assoc. cbn [app]. rewrite <- !app_assoc. econstructor; [exact H1|exact H2|exact H3| |].
    + eapply string_at_carried; [|apply Nat.le_refl|exact H4]. rewrite <- !Nat.add_assoc. eapply carries_part; [exact C1|lia].
    + apply K; [exact Hok|]. split.
      * rewrite <- !Nat.add_assoc. eapply carries_part; [exact C1|lia].
      * rewrite !Nat.add_assoc in C2. exact C2.
Qed.

Lemma array_put p w a x : array_at unq p w a -> In x (sa_elements a) -> ss_span x = sp ->
  exists wa X wb, w = wa ++ X ++ wb /\ X <> [] /\ begins_with LBRACK wa /\ sp = at_ (p + length wa) X /\
  (element_text unq t v -> fitted p wa X wb ->
   array_at unq p (wa ++ t ++ wb) (move_array f (StringArray (sa_span a) (map (put_string sp v) (sa_elements a))))).
Proof.
  intros Ha Hy Esp. destruct Ha as [p k g H1|p k g w x0 m l comma j g2 text H1 H2 H3 H4 H5 H6 Et]; cbn [sa_elements sa_span] in *; [destruct Hy|].
  pose proof (string_span _ _ _ H3) as Ev. destruct Hy as [->|Hy].
  - exists (LBRACK :: g), w, (m ++ comma ++ g2 ++ [RBRACK]). split; [exact Et|]. split; [apply quoted_nonempty; exact H2|].
    split; [eexists; reflexivity|]. cbn [length]. split; [rewrite <- Esp, Ev; f_equal; lia|]. intros Hok Ft.
    pose proof (fitted_place _ _ _ _ Ft) as Fp. pose proof (fitted_whole _ _ _ _ Ft) as Fw. destruct Ft as [C1 C2]. cbn [length app] in *.
    replace (p + S (length g)) with (p + 1 + length g) in * by lia.
    replace (map (put_string sp v) (x :: l)) with (SpannedString sp v :: l).
    2:{ cbn [map]. rewrite put_here by exact Esp. f_equal. rewrite <- (map_id l) at 1. apply map_ext_in. intros z Hz. symmetry. apply put_away. intros E.
        pose proof (more_placed _ _ _ H4 z Hz) as P.
        rewrite E, <- Esp, Ev in P. unfold at_ in P. cbn [s_start s_end] in P. apply quoted_nonempty in H2. destruct w; [congruence|]. cbn [length] in P. lia. }
    unfold move_array. cbn [sa_span sa_elements map]. rewrite Et at 1. rewrite Fw. unfold move_string at 1. cbn [ss_span ss_content]. rewrite <- Esp, Ev, Fp.
    apply (array_strings unq p k g t _ m (map (move_string f) l) comma j g2); try assumption; [apply Hok|apply element_here; exact Hok| |reflexivity].
    apply (more_strings_carried unq f _ _ _ H4). eapply carries_less; [exact C2|rewrite app_length; lia].
  - destruct (more_put _ _ _ H4 x Hy Esp) as (wa & X & wb & -> & HX & Hwa & Esp2 & K).
    exists (LBRACK :: g ++ w ++ wa), X, (wb ++ comma ++ g2 ++ [RBRACK]).
    assert (El : length (LBRACK :: g ++ w ++ wa) = 1 + length g + length w + length wa) by (cbn [length]; rewrite !app_length; lia).
    split; [rewrite Et; cbn [app]; rewrite <- !app_assoc; reflexivity|]. split; [exact HX|]. split; [eexists; reflexivity|].
    split; [rewrite El, Esp2; f_equal; lia|]. intros Hok Ft. pose proof (fitted_whole _ _ _ _ Ft) as Fw. destruct Ft as [C1 C2]. rewrite El in C1, C2.
    unfold move_array. cbn [sa_span sa_elements map]. rewrite put_away.
    2:{ intros E. rewrite E, Esp2 in Ev. unfold at_ in Ev. injection Ev as E1 _. apply quoted_nonempty in H2. destruct w; [congruence|]. cbn [length] in E1. lia. }
    rewrite Et. cbn [app] in Fw |- *. rewrite <- !app_assoc in Fw |- *. rewrite Fw.
    apply (array_strings unq p k g w (move_string f x0) (wa ++ t ++ wb) (map (move_string f) (map (put_string sp v) l)) comma j g2); try assumption.
    + eapply string_at_carried; [|apply Nat.le_refl|exact H3]. rewrite <- !Nat.add_assoc. eapply carries_part; [exact C1|lia].
    + apply K; [exact Hok|]. split.
      * replace (p + 1 + length g + length w) with (p + (1 + length g + length w)) by lia. eapply carries_part; [exact C1|lia].
      * rewrite !Nat.add_assoc in C2. eapply carries_less; [exact C2|rewrite app_length; lia].
    + rewrite <- !app_assoc. reflexivity.
Qed.

Lemma command_put k p w s csp e : command_reads unq k p w s csp e -> element_place e sp ->
  exists wa X wb, w = wa ++ X ++ wb /\ X <> [] /\ wa <> [] /\ sp = at_ (p + length wa) X /\
  (element_text unq t v -> fitted p wa X wb -> command_reads unq k p (wa ++ t ++ wb) s (move_span f csp) (move_command f (put_command sp v e))).
Proof.
  intros (kw & g & cmd & -> & H1 & H2 & H3 & H4 & H5 & ->) Hp. destruct e as [y|a]; [destruct Hp|]. destruct Hp as (x & Hx & Esp).
  destruct (array_put _ _ _ _ H5 Hx Esp) as (wa & X & wb & -> & HX & (wa0 & Hwa) & Esp2 & K). exists (kw ++ g ++ wa), X, wb.
  assert (El : length (kw ++ g ++ wa) = length kw + length g + length wa) by (rewrite !app_length; lia).
  split; [rewrite <- !app_assoc; reflexivity|]. split; [exact HX|]. split; [destruct kw, g; try discriminate; congruence|].
  split; [rewrite El, Esp2; f_equal; lia|]. intros Hok Ft. pose proof (fitted_whole _ _ _ _ Ft) as Fw. destruct Ft as [C1 C2]. rewrite El in C1, C2.
  repeat rewrite <- app_assoc in Fw. repeat rewrite <- app_assoc. exists kw, g, (wa ++ t ++ wb). do 4 (split; [first [reflexivity|assumption]|]).
  split; [rewrite Hwa; cbn [app]; apply (gap_over_solid 0); [exact H2|repeat split; discriminate]|]. split; [|exact Fw].
  cbn [put_command move_command]. apply K; [exact Hok|]. split.
  - rewrite <- !Nat.add_assoc. eapply carries_part; [exact C1|lia].
  - rewrite !Nat.add_assoc in C2. exact C2.
Qed.

(** *** All of them *)

Lemma instruction_put p w s i : instruction_reads unq p w s i -> closed_end s -> value_place i sp ->
  exists wa X wb, w = wa ++ X ++ wb /\ X <> [] /\ wa <> [] /\ sp = at_ (p + length wa) X /\
  (forall P, value_text unq (P ++ wa) i t v -> quotes_apart wa (t ++ wb ++ s) -> fitted p wa X wb ->
   instruction_reads unq p (wa ++ t ++ wb) s (move_instruction f (with_value sp v i))).
Proof.
  intros R Hs Hp. destruct i as [x|x|x|x|x|x|x|x|x]; cbn [instruction_reads value_place value_text with_value move_instruction
    run_span run_expr entrypoint_span entrypoint_expr cmd_span cmd_expr label_span label_labels env_span env_vars] in *; try contradiction.
  - destruct Hp as (y & Ey & Esp). destruct (arg_value_put _ _ _ _ _ R Hs Ey Esp) as (wa & X & wb & H1 & H2 & H3 & H4 & K). exists wa, X, wb. auto 8.
  - destruct Hp as (y & Ey & Esp). destruct (label_value_put _ _ _ _ _ R Hs Ey Esp) as (wa & X & wb & H1 & H2 & H3 & H4 & K). exists wa, X, wb. auto 8.
  - destruct (command_put _ _ _ _ _ _ R Hp) as (wa & X & wb & H1 & H2 & H3 & H4 & K). exists wa, X, wb. auto 8.
  - destruct (command_put _ _ _ _ _ _ R Hp) as (wa & X & wb & H1 & H2 & H3 & H4 & K). exists wa, X, wb. auto 8.
  - destruct (command_put _ _ _ _ _ _ R Hp) as (wa & X & wb & H1 & H2 & H3 & H4 & K). exists wa, X, wb. auto 8.
  - destruct Hp as (y & Ey & Esp). destruct (env_value_put _ _ _ _ _ R Hs Ey Esp) as (wa & X & wb & H1 & H2 & H3 & H4 & K). exists wa, X, wb. eauto 8.
Qed.

End Values.
