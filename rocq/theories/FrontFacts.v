(** Pairs taken out in front of another pair of the same instruction, in the readings of
    SpecExact.v. *)

From Coq Require Import String.
From Verif Require Import Bytes BytesFacts Ast SpecImage SpecSyntax SpecClear SpecExact SpecMove SpecSplice SpecJoin SpecReword SpecShrink
  Forward Forward3 Sound Exact Exact3 ReadsMove ValuesFacts KeysFacts ShrinkFacts.
Local Open Scope nat_scope.

Section Pairs.
Context {A : Type}.
Variable at1 : nat -> bytes -> bytes -> A -> Prop.
Variable mv : (nat -> nat) -> A -> A.
Variable pl : A -> span.

Hypothesis carried : forall f p q w s x, carries f p q (length w) -> at1 p w s x -> at1 q w s (mv f x).
Hypothesis on : forall p w u s s' x, apart (w ++ u) s' ->
  (forall n z, w = n ++ EQUALS :: z -> z <> [] -> word_over z (u ++ s) -> word_over z (u ++ s')) -> at1 p w (u ++ s) x -> at1 p w (u ++ s') x.
Hypothesis placed : forall p w s x, at1 p w s x -> s_start (pl x) = p /\ exists n z, w = n ++ EQUALS :: z.

(** Behind the gap after them something else follows. *)
Lemma spaced_front l : forall p w k g s s', spaced_reads at1 p w (g ++ s) l -> gap k g -> g <> [] -> begins_solid s' -> quotes_apart (w ++ g) s' ->
  spaced_reads at1 p w (g ++ s') l.
Proof.
  induction l as [|x l IH]; intros p w k g s s' H Hg Hn Hs Hq; inversion H as [|? j h wx ? w2 ? ? Hh Hm Ho Hx Hl]; subst; [constructor|].
  pose proof (placed _ _ _ _ Hx) as (_ & n & z & Ew).
  assert (K : spaced_reads at1 (p + length h + length wx) w2 (g ++ s') l).
  { apply (IH _ _ k g s s' Hl Hg Hn Hs). apply (quotes_suffix (h ++ wx)). rewrite <- !app_assoc in *. exact Hq. }
  econstructor; [exact Hh|exact Hm| | |exact K].
  - rewrite Ew, <- app_assoc in Ho |- *. cbn [app] in *. exact (gap_over_local _ _ _ _ Ho).
  - rewrite app_assoc in Hx |- *. apply (on _ _ (w2 ++ g) s); [| |exact Hx].
    + apply (gap_apart j h); [exact Hh|exact Hm|]. rewrite <- !app_assoc in *. exact Hq.
    + intros n1 z1 _ _ Q. rewrite <- (app_nil_r s'). apply (word_over_solid_local z1 (w2 ++ g) s s' []); [destruct w2, g; try discriminate; congruence|exact Hs|exact Q|].
      rewrite app_nil_r, <- app_assoc. apply (spaced_follows at1 _ _ _ _ K). apply (gap_follows k); assumption.
Qed.

Lemma pairs_front l1 x out z l2 p w s : spaced_reads at1 p w s (l1 ++ x :: out ++ z :: l2) ->
  exists wa X wb, w = wa ++ X ++ wb /\ wa <> [] /\ X <> [] /\ s_start (pl x) = p + length wa /\ s_start (pl z) = p + length wa + length X /\
  forall f, carries f p p (length wa) -> carries f (p + length wa + length X) (p + length wa) (length wb) ->
  begins_solid (wb ++ s) -> quotes_apart wa (wb ++ s) ->
    spaced_reads at1 p (wa ++ wb) s (map (mv f) (l1 ++ z :: l2)).
Proof.
  intros H. destruct (spaced_split at1 _ _ _ _ _ H) as (w1 & w0 & -> & H1 & H2). clear H.
  inversion H2 as [|? k g wx ? w3 ? ? Hg Hn Ho Hx Hl]; subst; clear H2.
  destruct (spaced_split at1 _ _ _ _ _ Hl) as (w4 & w5 & -> & H3 & H4). clear Hl.
  inversion H4 as [|? j h wz ? w6 ? ? Hh Hm Ho2 Hz Hl]; subst; clear H4.
  pose proof (placed _ _ _ _ Hx) as (Ex & nx & zx & Ewx). pose proof (placed _ _ _ _ Hz) as (Ez & _).
  exists (w1 ++ g), (wx ++ w4 ++ h), (wz ++ w6). split; [rewrite <- !app_assoc; reflexivity|].
  split; [destruct w1, g; try discriminate; congruence|]. split; [rewrite Ewx; destruct nx; discriminate|].
  split; [rewrite Ex, app_length; lia|]. split; [rewrite Ez, !app_length; lia|].
  intros f C1 C2 Hs Hq. rewrite <- app_assoc in Hs, Hq. rewrite map_app, <- app_assoc. cbn [map].
  replace (p + length (w1 ++ g) + length (wx ++ w4 ++ h)) with (p + length w1 + length g + length wx + length w4 + length h) in C2 by (rewrite !app_length; lia).
  rewrite !app_length in C1, C2.
  apply spaced_join.
  - apply (spaced_moved at1 mv carried f _ p); [intros q Lq; apply C1; lia|]. rewrite <- !app_assoc in H1 |- *.
    apply (spaced_front _ _ _ k _ _ _ H1 Hg Hn Hs Hq).
  - econstructor; [exact Hg|exact Hn| | |].
    + destruct Hs as (c & y & Ey & Hc). rewrite Ey. exact (gap_over_solid k g c y Hg Hc).
    + apply (carried f (p + length w1 + length g + length wx + length w4 + length h)); [|exact Hz]. intros q Lq. rewrite C2 by (rewrite app_length; lia). lia.
    + apply (spaced_moved at1 mv carried f _ (p + length w1 + length g + length wx + length w4 + length h + length wz)); [|exact Hl].
      intros q Lq. rewrite <- Nat.add_assoc, C2 by (rewrite app_length; lia). lia.
Qed.
End Pairs.

Section Front.
Variable unq : bytes -> option bytes.

Lemma label_pair_start p w s x : label_pair_reads unq p w s x -> s_start (lb_span x) = p /\ exists n z, w = n ++ EQUALS :: z.
Proof. intros (n & z & -> & _ & _ & ->). split; [reflexivity|eauto]. Qed.
Lemma env_pair_start p w s x : env_pair_reads unq p w s x -> s_start (ev_span x) = p /\ exists n z, w = n ++ EQUALS :: z.
Proof. intros (n & z & -> & _ & _ & _ & ->). split; [reflexivity|eauto]. Qed.

Lemma instruction_front p w s i i' a e : instruction_reads unq p w s i -> drops_front a e i i' ->
  exists wa X wb, w = wa ++ X ++ wb /\ wa <> [] /\ X <> [] /\ a = p + length wa /\ e = p + length wa + length X /\
  forall f, carries f p p (length wa) -> carries f (p + length wa + length X) (p + length wa) (length wb) ->
  begins_solid (wb ++ s) -> quotes_apart wa (wb ++ s) -> instruction_reads unq p (wa ++ wb) s (move_instruction f i').
Proof.
  intros R H. destruct H as [x l1 l out m l2 El Ea Ee|x l1 l out m l2 El Ea Ee]; cbn [instruction_reads] in R;
    destruct R as (kw & r & -> & H1 & H2 & [(l0 & _ & E0)|(pairs & g & -> & K1 & K2 & K3)]);
    try (exfalso; rewrite E0 in El; exact (two_pairs _ _ _ _ _ _ El)); rewrite El in K2.
  - destruct (pairs_front (label_pair_reads unq) move_label lb_span (fun f p q w s x C => label_pair_carried unq f p q _ w s x C (Nat.le_refl _)) (label_pair_on unq) label_pair_start
      l1 l out m l2 _ _ _ K2) as (wa & X & wb & -> & Hwa & HX & E1 & E2 & K).
    exists (kw ++ wa), X, (wb ++ g). split; [rewrite <- !app_assoc; reflexivity|].
    split; [destruct kw, wa; try discriminate; congruence|]. split; [exact HX|].
    split; [rewrite app_length; lia|]. split; [rewrite app_length; lia|]. intros f C1 C2 Hb Hq. cbn [move_instruction instruction_reads].
    exists kw, ((wa ++ wb) ++ g). cbn [label_span label_labels]. split; [rewrite <- !app_assoc; reflexivity|]. split; [exact H1|].
    split.
    { rewrite H2. replace (kw ++ (wa ++ X ++ wb) ++ g) with ((kw ++ wa) ++ X ++ (wb ++ g)) by (rewrite <- !app_assoc; reflexivity). apply span_shrunk; assumption. }
    right. exists (wa ++ wb), g. split; [reflexivity|].
    split; [destruct wa; [congruence|discriminate]|]. split; [|exact K3]. apply K.
    + intros q Lq. rewrite <- Nat.add_assoc. apply C1. rewrite app_length. lia.
    + intros q Lq. rewrite !app_length in C2. replace (p + length kw + length wa + length X + q) with (p + (length kw + length wa) + length X + q) by lia. rewrite C2 by lia. lia.
    + rewrite <- app_assoc in Hb. exact Hb.
    + apply quotes_suffix in Hq. rewrite <- app_assoc in Hq. exact Hq.
  - destruct (pairs_front (env_pair_reads unq) move_env ev_span (fun f p q w s x C => env_pair_carried unq f p q _ w s x C (Nat.le_refl _)) (env_pair_on unq) env_pair_start
      l1 l out m l2 _ _ _ K2) as (wa & X & wb & -> & Hwa & HX & E1 & E2 & K).
    exists (kw ++ wa), X, (wb ++ g). split; [rewrite <- !app_assoc; reflexivity|].
    split; [destruct kw, wa; try discriminate; congruence|]. split; [exact HX|].
    split; [rewrite app_length; lia|]. split; [rewrite app_length; lia|]. intros f C1 C2 Hb Hq. cbn [move_instruction instruction_reads].
    exists kw, ((wa ++ wb) ++ g). cbn [env_span env_vars]. split; [rewrite <- !app_assoc; reflexivity|]. split; [exact H1|].
    split.
    { rewrite H2. replace (kw ++ (wa ++ X ++ wb) ++ g) with ((kw ++ wa) ++ X ++ (wb ++ g)) by (rewrite <- !app_assoc; reflexivity). apply span_shrunk; assumption. }
    right. exists (wa ++ wb), g. split; [reflexivity|].
    split; [destruct wa; [congruence|discriminate]|]. split; [|exact K3]. apply K.
    + intros q Lq. rewrite <- Nat.add_assoc. apply C1. rewrite app_length. lia.
    + intros q Lq. rewrite !app_length in C2. replace (p + length kw + length wa + length X + q) with (p + (length kw + length wa) + length X + q) by lia. rewrite C2 by lia. lia.
    + rewrite <- app_assoc in Hb. exact Hb.
    + apply quotes_suffix in Hq. rewrite <- app_assoc in Hq. exact Hq.
Qed.
End Front.
