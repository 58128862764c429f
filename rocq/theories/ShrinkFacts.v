(** Pairs taken out of an instruction, in the readings of SpecExact.v. *)

From Coq Require Import String.
From Verif Require Import Bytes BytesFacts Ast SpecImage SpecSyntax SpecClear SpecExact SpecMove SpecSplice SpecJoin SpecReword SpecShrink
  Forward Forward3 Sound Exact Exact3 ReadsMove ValuesFacts KeysFacts.
Local Open Scope nat_scope.

(** ** Pairs *)

Section Pairs.
Context {A : Type}.
Variable at1 : nat -> bytes -> bytes -> A -> Prop.
Variable mv : (nat -> nat) -> A -> A.
Variable pl : A -> span.

Hypothesis carried : forall f p q w s x, carries f p q (length w) -> at1 p w s x -> at1 q w s (mv f x).
Hypothesis on : forall p w u s s' x, apart (w ++ u) s' ->
  (forall n z, w = n ++ EQUALS :: z -> z <> [] -> word_over z (u ++ s) -> word_over z (u ++ s')) -> at1 p w (u ++ s) x -> at1 p w (u ++ s') x.
Hypothesis placed : forall p w s x, at1 p w s x -> s_end (pl x) = p + length w /\ exists n z, w = n ++ EQUALS :: z.

Lemma spaced_split la lb : forall p w s, spaced_reads at1 p w s (la ++ lb) ->
  exists wa wb, w = wa ++ wb /\ spaced_reads at1 p wa (wb ++ s) la /\ spaced_reads at1 (p + length wa) wb s lb.
Proof.
  induction la as [|x la IH]; intros p w s H; cbn [app] in H.
  - exists [], w. split; [reflexivity|]. split; [constructor|]. rewrite Nat.add_0_r. exact H.
  - inversion H as [|? k g wx ? w2 ? ? Hg Hn Ho Hx Hl]; subst. destruct (IH _ _ _ Hl) as (wa & wb & -> & K1 & K2).
    exists (g ++ wx ++ wa), wb. split; [rewrite <- !app_assoc; reflexivity|]. split.
    + econstructor; [exact Hg|exact Hn| | |exact K1]; rewrite <- app_assoc in *; assumption.
    + rewrite !app_length. replace (p + (length g + (length wx + length wa))) with (p + length g + length wx + length wa) by lia. exact K2.
Qed.

Lemma spaced_join la lb : forall p wa wb s, spaced_reads at1 p wa (wb ++ s) la -> spaced_reads at1 (p + length wa) wb s lb ->
  spaced_reads at1 p (wa ++ wb) s (la ++ lb).
Proof.
  induction la as [|x la IH]; intros p wa wb s H K; inversion H as [|? k g wx ? w2 ? ? Hg Hn Ho Hx Hl]; subst; cbn [app].
  - rewrite Nat.add_0_r in K. exact K.
  - rewrite <- !app_assoc. econstructor; [exact Hg|exact Hn| | |apply IH; [exact Hl|]].
    + rewrite <- app_assoc. exact Ho.
    + rewrite <- app_assoc. exact Hx.
    + rewrite !app_length in K. replace (p + length g + length wx + length w2) with (p + (length g + (length wx + length w2))) by lia. exact K.
Qed.

Lemma spaced_end l x : forall p w s, spaced_reads at1 p w s (l ++ [x]) -> s_end (pl x) = p + length w /\ exists n z, w = n ++ EQUALS :: z.
Proof.
  induction l as [|y l IH]; intros p w s H; cbn [app] in H; inversion H as [|? k g wx ? w2 ? ? Hg Hn Ho Hx Hl]; subst.
  - inversion Hl; subst. destruct (placed _ _ _ _ Hx) as (E & n & z & ->). split; [rewrite E, !app_length; cbn [length]; lia|].
    exists (g ++ n), z. rewrite app_nil_r, <- app_assoc. reflexivity.
  - destruct (IH _ _ _ Hl) as (E & n & z & ->). split; [rewrite E, !app_length; lia|]. exists (g ++ wx ++ n), z. rewrite <- !app_assoc. reflexivity.
Qed.

Lemma spaced_moved f l : forall p q w s, carries f p q (length w) -> spaced_reads at1 p w s l -> spaced_reads at1 q w s (map (mv f) l).
Proof.
  induction l as [|x l IH]; intros p q w s C H; inversion H as [|? k g wx ? w2 ? ? Hg Hn Ho Hx Hl]; subst; cbn [map]; [constructor|].
  rewrite !app_length in C. econstructor; [exact Hg|exact Hn|exact Ho| |].
  - apply (carried f (p + length g)); [|exact Hx]. intros a La. rewrite <- !Nat.add_assoc. apply C. lia.
  - apply (IH (p + length g + length wx)); [|exact Hl]. intros a La. rewrite <- !Nat.add_assoc. apply C. lia.
Qed.

(** Other text follows. *)
Lemma spaced_last l x : forall p w s s', spaced_reads at1 p w s (l ++ [x]) -> follows s' -> ~ ends_with_backslash w -> quotes_apart w s' ->
  spaced_reads at1 p w s' (l ++ [x]).
Proof.
  induction l as [|y l IH]; intros p w s s' H Hf Hb Hq; cbn [app] in *; inversion H as [|? k g wx ? w2 ? ? Hg Hn Ho Hx Hl]; subst.
  - inversion Hl; subst. rewrite app_nil_r in *. pose proof (placed _ _ _ _ Hx) as (_ & n & z & Ew).
    rewrite <- (app_nil_r wx). econstructor; [exact Hg|exact Hn| | |constructor]; cbn [app] in *.
    + rewrite Ew, <- app_assoc in Ho |- *. cbn [app] in *. exact (gap_over_local _ _ _ _ Ho).
    + apply (on _ _ [] s); [rewrite app_nil_r; exact (gap_apart k g _ _ Hg Hn Hq)| |exact Hx].
      intros n1 z1 E1 Hz _. split; [exact Hf|]. intros (u & b & nl & r & -> & _). apply Hb. exists (g ++ n1 ++ EQUALS :: u).
      rewrite E1, <- !app_assoc. reflexivity.
  - destruct (spaced_end _ _ _ _ _ Hl) as (_ & n & z & Ew). pose proof (placed _ _ _ _ Hx) as (_ & n0 & z0 & Ew0).
    econstructor; [exact Hg|exact Hn| | |].
    + rewrite Ew0, <- app_assoc in Ho |- *. cbn [app] in *. exact (gap_over_local _ _ _ _ Ho).
    + apply (on _ _ w2 s); [exact (gap_apart k g _ _ Hg Hn Hq)| |exact Hx].
      intros n1 z1 _ _ K. rewrite Ew, <- app_assoc in K |- *. cbn [app] in *. exact (word_over_local _ _ _ _ K).
    + apply (IH _ _ s); [exact Hl|exact Hf| |apply quotes_suffix in Hq; apply quotes_suffix in Hq; exact Hq].
      intros (u & ->). apply Hb. exists (g ++ wx ++ u). rewrite <- !app_assoc. reflexivity.
Qed.

Lemma pairs_shrunk l1 l out m l2 p w s : spaced_reads at1 p w s (l1 ++ l :: out ++ m :: l2) -> follows s ->
  exists wa X wb, w = wa ++ X ++ wb /\ wa <> [] /\ X <> [] /\ s_end (pl l) = p + length wa /\ s_end (pl m) = p + length wa + length X /\
  forall f, carries f p p (length wa) -> carries f (p + length wa + length X) (p + length wa) (length wb) ->
  ~ ends_with_backslash wa -> quotes_apart wa (wb ++ s) ->
    spaced_reads at1 p (wa ++ wb) s (map (mv f) (l1 ++ l :: l2)).
Proof.
  intros H Hf. replace (l1 ++ l :: out ++ m :: l2) with ((l1 ++ [l]) ++ (out ++ [m]) ++ l2) in H by (rewrite <- !app_assoc; reflexivity).
  destruct (spaced_split _ _ _ _ _ H) as (wa & w0 & -> & H1 & H2). destruct (spaced_split _ _ _ _ _ H2) as (X & wb & -> & H3 & H4).
  destruct (spaced_end _ _ _ _ _ H1) as (E1 & n0 & z0 & E0). destruct (spaced_end _ _ _ _ _ H3) as (E2 & n & z & EX).
  exists wa, X, wb. split; [reflexivity|]. split; [rewrite E0; destruct n0; discriminate|]. split; [rewrite EX; destruct n; discriminate|]. split; [exact E1|]. split; [exact E2|].
  intros f C1 C2 Hb Hq. replace (l1 ++ l :: l2) with ((l1 ++ [l]) ++ l2) by (rewrite <- app_assoc; reflexivity). rewrite map_app.
  apply spaced_join; [|exact (spaced_moved f l2 _ _ _ _ C2 H4)].
  apply (spaced_moved f _ p); [exact C1|]. apply (spaced_last _ _ _ _ _ _ H1); [|exact Hb|exact Hq].
  exact (spaced_follows at1 _ _ _ _ H4 Hf).
Qed.
End Pairs.

Section Shrunk.
Variable unq : bytes -> option bytes.

Lemma label_pair_on p w u s s' x : apart (w ++ u) s' ->
  (forall n z, w = n ++ EQUALS :: z -> z <> [] -> word_over z (u ++ s) -> word_over z (u ++ s')) -> label_pair_reads unq p w (u ++ s) x -> label_pair_reads unq p w (u ++ s') x.
Proof.
  intros Hq Hw (n & z & -> & H1 & H2 & H3). exists n, z. split; [reflexivity|]. rewrite <- !app_assoc in Hq. cbn [app] in Hq. split; [|split; [|exact H3]].
  - destruct H1 as [H1|(K1 & K2 & K3 & K4)]; [left; exact H1|right]. split; [exact K1|]. split; [|split; [exact K3|exact K4]].
    assert (E : forall y, n ++ EQUALS :: z ++ u ++ y = (n ++ EQUALS :: z ++ u) ++ y).
    { intros y. rewrite <- !app_assoc. cbn [app]. rewrite <- !app_assoc. reflexivity. }
    rewrite E in K2 |- *. apply (not_quoted _ s); [destruct n; discriminate|exact Hq|exact K2].
  - destruct H2 as [H2|(K1 & K2 & K3 & K4)]; [left; exact H2|right]. assert (Hz : z <> []) by (destruct K1; assumption).
    split; [exact K1|]. split; [|split; [exact (Hw n z eq_refl Hz K3)|exact K4]].
    rewrite app_assoc in K2 |- *. apply (not_quoted _ s); [|apply (apart_later _ _ _ _ Hq); reflexivity|exact K2]. destruct z; [congruence|discriminate].
Qed.

Lemma env_pair_on p w u s s' x : apart (w ++ u) s' ->
  (forall n z, w = n ++ EQUALS :: z -> z <> [] -> word_over z (u ++ s) -> word_over z (u ++ s')) -> env_pair_reads unq p w (u ++ s) x -> env_pair_reads unq p w (u ++ s') x.
Proof.
  intros Hq Hw (n & z & -> & H1 & H2 & H3 & H4). exists n, z. split; [reflexivity|]. rewrite <- !app_assoc in Hq. cbn [app] in Hq.
  split; [exact H1|]. split; [exact H2|]. split; [|exact H4].
  destruct H3 as [H3|(K1 & K2 & K3 & K4)]; [left; exact H3|right]. assert (Hz : z <> []) by (destruct K1; assumption).
  split; [exact K1|]. split; [|split; [exact (Hw n z eq_refl Hz K3)|exact K4]].
  rewrite app_assoc in K2 |- *. apply (not_quoted _ s); [|apply (apart_later _ _ _ _ Hq); reflexivity|exact K2]. destruct z; [congruence|discriminate].
Qed.

Lemma label_pair_end p w s x : label_pair_reads unq p w s x -> s_end (lb_span x) = p + length w /\ exists n z, w = n ++ EQUALS :: z.
Proof. intros (n & z & -> & _ & _ & ->). split; [reflexivity|eauto]. Qed.
Lemma env_pair_end p w s x : env_pair_reads unq p w s x -> s_end (ev_span x) = p + length w /\ exists n z, w = n ++ EQUALS :: z.
Proof. intros (n & z & -> & _ & _ & _ & ->). split; [reflexivity|eauto]. Qed.

Lemma two_pairs {T} (x : T) l1 l out m l2 : [x] <> l1 ++ l :: out ++ m :: l2.
Proof. intros E. apply (f_equal (@length T)) in E. rewrite !app_length in E. cbn [length] in E. rewrite app_length in E. cbn [length] in E. lia. Qed.

Lemma span_shrunk f p w1 X w2 : carries f p p (length w1) -> carries f (p + length w1 + length X) (p + length w1) (length w2) ->
  move_span f (at_ p (w1 ++ X ++ w2)) = at_ p (w1 ++ w2).
Proof.
  intros C1 C2. unfold move_span, at_. cbn [s_start s_end]. f_equal.
  - rewrite <- (Nat.add_0_r p) at 1. rewrite C1 by lia. lia.
  - rewrite !app_length. replace (p + (length w1 + (length X + length w2))) with (p + length w1 + length X + length w2) by lia. rewrite C2 by lia. lia.
Qed.

Lemma instruction_shrunk p w s i i' a e : instruction_reads unq p w s i -> closed_end s -> drops a e i i' ->
  exists wa X wb, w = wa ++ X ++ wb /\ wa <> [] /\ X <> [] /\ a = p + length wa /\ e = p + length wa + length X /\
  forall f, carries f p p (length wa) -> carries f (p + length wa + length X) (p + length wa) (length wb) ->
  ~ ends_with_backslash wa -> quotes_apart wa (wb ++ s) -> instruction_reads unq p (wa ++ wb) s (move_instruction f i').
Proof.
  intros R Hc H. destruct H as [x l1 l out m l2 El Ea Ee|x l1 l out m l2 El Ea Ee]; cbn [instruction_reads] in R.
  - destruct R as (kw & r & -> & H1 & H2 & [(l0 & _ & E0)|(pairs & g & -> & K1 & K2 & K3)]).
    { exfalso. rewrite E0 in El. exact (two_pairs _ _ _ _ _ _ El). }
    rewrite El in K2. pose proof (gap_before_follows _ _ K3 Hc) as Hf.
    destruct (pairs_shrunk (label_pair_reads unq) move_label lb_span (fun f p q w s x C => label_pair_carried unq f p q _ w s x C (Nat.le_refl _)) label_pair_on label_pair_end
      l1 l out m l2 _ _ _ K2 Hf) as (wa & X & wb & -> & Hwa & HX & E1 & E2 & K).
    exists (kw ++ wa), X, (wb ++ g). split; [rewrite <- !app_assoc; reflexivity|].
    split; [destruct kw, wa; try discriminate; congruence|]. split; [exact HX|].
    split; [rewrite app_length; lia|]. split; [rewrite app_length; lia|]. intros f C1 C2 Hb Hq. cbn [move_instruction instruction_reads].
    exists kw, ((wa ++ wb) ++ g). cbn [label_span label_labels]. split; [rewrite <- !app_assoc; reflexivity|]. split; [exact H1|].
    split.
    { rewrite H2. replace (kw ++ (wa ++ X ++ wb) ++ g) with ((kw ++ wa) ++ X ++ (wb ++ g)) by (rewrite <- !app_assoc; reflexivity). apply span_shrunk; assumption. }
    right. exists (wa ++ wb), g. split; [reflexivity|].
    split; [destruct wa; [congruence|discriminate]|]. split; [|exact K3]. apply K.
    + intros q Lq. rewrite <- Nat.add_assoc. apply C1. rewrite app_length. lia.
    + intros q Lq. rewrite !app_length in C2. replace (p + length kw + length wa + length X + q) with (p + (length kw + length wa) + length X + q) by lia. rewrite C2 by lia. lia.
    + intros (u & ->). apply Hb. exists (kw ++ u). rewrite <- app_assoc. reflexivity.
    + apply quotes_suffix in Hq. rewrite <- app_assoc in Hq. exact Hq.
  - destruct R as (kw & r & -> & H1 & H2 & [(l0 & _ & E0)|(pairs & g & -> & K1 & K2 & K3)]).
    { exfalso. rewrite E0 in El. exact (two_pairs _ _ _ _ _ _ El). }
    rewrite El in K2. pose proof (gap_before_follows _ _ K3 Hc) as Hf.
    destruct (pairs_shrunk (env_pair_reads unq) move_env ev_span (fun f p q w s x C => env_pair_carried unq f p q _ w s x C (Nat.le_refl _)) env_pair_on env_pair_end
      l1 l out m l2 _ _ _ K2 Hf) as (wa & X & wb & -> & Hwa & HX & E1 & E2 & K).
    exists (kw ++ wa), X, (wb ++ g). split; [rewrite <- !app_assoc; reflexivity|].
    split; [destruct kw, wa; try discriminate; congruence|]. split; [exact HX|].
    split; [rewrite app_length; lia|]. split; [rewrite app_length; lia|]. intros f C1 C2 Hb Hq. cbn [move_instruction instruction_reads].
    exists kw, ((wa ++ wb) ++ g). cbn [env_span env_vars]. split; [rewrite <- !app_assoc; reflexivity|]. split; [exact H1|].
    split.
    { rewrite H2. replace (kw ++ (wa ++ X ++ wb) ++ g) with ((kw ++ wa) ++ X ++ (wb ++ g)) by (rewrite <- !app_assoc; reflexivity). apply span_shrunk; assumption. }
    right. exists (wa ++ wb), g. split; [reflexivity|].
    split; [destruct wa; [congruence|discriminate]|]. split; [|exact K3]. apply K.
    + intros q Lq. rewrite <- Nat.add_assoc. apply C1. rewrite app_length. lia.
    + intros q Lq. rewrite !app_length in C2. replace (p + length kw + length wa + length X + q) with (p + (length kw + length wa) + length X + q) by lia. rewrite C2 by lia. lia.
    + intros (u & ->). apply Hb. exists (kw ++ u). rewrite <- app_assoc. reflexivity.
    + apply quotes_suffix in Hq. rewrite <- app_assoc in Hq. exact Hq.
Qed.
End Shrunk.
