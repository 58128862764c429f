(** Pairs taken out of an instruction of a document: the lines before it, its own line, the
    lines after it. *)

From Coq Require Import String.
From Verif Require Import Bytes BytesFacts Result Ast Convert Dockerfile SpecImage SpecSyntax SpecClear SpecExact SpecMove SpecSplice SpecJoin SpecReword SpecValues SpecShrink
  Forward Forward3 Sound Exact Exact3 Exact7 Exact8 SpecDoc SpecParts DocFacts ParseEdit PropsParse PropsDoc PropsJoin PropsBlocks ReadsMove ValuesFacts
  ValuesDoc KeysFacts ShrinkFacts FrontFacts.
Local Open Scope nat_scope.

Lemma drops_later k m a e i i' : drops a e (later k m i) i' ->
  exists a0 e0 i0, a = k + a0 /\ e = k + e0 /\ i' = later k m i0 /\ drops a0 e0 i i0.
Proof.
  intros H. remember (later k m i) as j eqn:Ej.
  destruct H as [x l1 l out x2 l2 El Ea Ee|x l1 l out x2 l2 El Ea Ee]; destruct i as [z|z|z|z|z|z|z|z|z]; try discriminate Ej;
    unfold later in Ej; cbn [move_instruction] in Ej; injection Ej as ->; cbn [label_labels label_span env_vars env_span] in *;
    apply map_eq_app in El; destruct El as (m1 & m2' & Ez & <- & E2); apply map_eq_cons in E2; destruct E2 as (l0 & m2 & -> & <- & E3);
    apply map_eq_app in E3; destruct E3 as (m3 & m4 & -> & <- & E4); apply map_eq_cons in E4; destruct E4 as (m5 & m6 & -> & <- & <-).
  - exists (s_end (lb_span l0)), (s_end (lb_span m5)), (ILabel (LabelInstruction (label_span z) (m1 ++ l0 :: m6))).
    split; [symmetry; exact Ea|]. split; [symmetry; exact Ee|]. split; [|exact (drops_label _ _ z m1 l0 m3 m5 m6 Ez eq_refl eq_refl)].
    unfold later. cbn [move_instruction label_labels label_span]. rewrite map_app. reflexivity.
  - exists (s_end (ev_span l0)), (s_end (ev_span m5)), (IEnv (EnvInstruction (env_span z) (m1 ++ l0 :: m6))).
    split; [symmetry; exact Ea|]. split; [symmetry; exact Ee|]. split; [|exact (drops_var _ _ z m1 l0 m3 m5 m6 Ez eq_refl eq_refl)].
    unfold later. cbn [move_instruction env_vars env_span]. rewrite map_app. reflexivity.
Qed.

Lemma front_later k m a e i i' : drops_front a e (later k m i) i' ->
  exists a0 e0 i0, a = k + a0 /\ e = k + e0 /\ i' = later k m i0 /\ drops_front a0 e0 i i0.
Proof.
  intros H. remember (later k m i) as j eqn:Ej.
  destruct H as [x l1 l out x2 l2 El Ea Ee|x l1 l out x2 l2 El Ea Ee]; destruct i as [z|z|z|z|z|z|z|z|z]; try discriminate Ej;
    unfold later in Ej; cbn [move_instruction] in Ej; injection Ej as ->; cbn [label_labels label_span env_vars env_span] in *;
    apply map_eq_app in El; destruct El as (m1 & m2' & Ez & <- & E2); apply map_eq_cons in E2; destruct E2 as (l0 & m2 & -> & <- & E3);
    apply map_eq_app in E3; destruct E3 as (m3 & m4 & -> & <- & E4); apply map_eq_cons in E4; destruct E4 as (m5 & m6 & -> & <- & <-).
  - exists (s_start (lb_span l0)), (s_start (lb_span m5)), (ILabel (LabelInstruction (label_span z) (m1 ++ m5 :: m6))).
    split; [symmetry; exact Ea|]. split; [symmetry; exact Ee|]. split; [|exact (front_label _ _ z m1 l0 m3 m5 m6 Ez eq_refl eq_refl)].
    unfold later. cbn [move_instruction label_labels label_span]. rewrite map_app. reflexivity.
  - exists (s_start (ev_span l0)), (s_start (ev_span m5)), (IEnv (EnvInstruction (env_span z) (m1 ++ m5 :: m6))).
    split; [symmetry; exact Ea|]. split; [symmetry; exact Ee|]. split; [|exact (front_var _ _ z m1 l0 m3 m5 m6 Ez eq_refl eq_refl)].
    unfold later. cbn [move_instruction env_vars env_span]. rewrite map_app. reflexivity.
Qed.

Lemma drops_shrunk unq p w s i i' a e : instruction_reads unq p w s i -> closed_end s -> drops a e i i' ->
  exists wa X wb, w = wa ++ X ++ wb /\ wa <> [] /\ X <> [] /\ a = p + length wa /\ e = p + length wa + length X /\
  forall f P, carries f p p (length wa) -> carries f (p + length wa + length X) (p + length wa) (length wb) ->
  ~ ends_with_backslash (P ++ wa) -> quotes_apart wa (wb ++ s) -> instruction_reads unq p (wa ++ wb) s (move_instruction f i').
Proof.
  intros R Hc H. destruct (instruction_shrunk unq _ _ _ _ _ _ _ R Hc H) as (wa & X & wb & H1 & H2 & H3 & H4 & H5 & K). exists wa, X, wb. do 5 (split; [assumption|]).
  intros f P C1 C2 Hn Hq. apply K; try assumption. intros (u & ->). apply Hn. exists (P ++ u). rewrite <- app_assoc. reflexivity.
Qed.

Lemma front_shrunk unq p w s i i' a e : instruction_reads unq p w s i -> closed_end s -> drops_front a e i i' ->
  exists wa X wb, w = wa ++ X ++ wb /\ wa <> [] /\ X <> [] /\ a = p + length wa /\ e = p + length wa + length X /\
  forall f (P : bytes), carries f p p (length wa) -> carries f (p + length wa + length X) (p + length wa) (length wb) ->
  begins_solid (wb ++ s) -> quotes_apart wa (wb ++ s) -> instruction_reads unq p (wa ++ wb) s (move_instruction f i').
Proof.
  intros R Hc H. destruct (instruction_front unq _ _ _ _ _ _ _ R H) as (wa & X & wb & H1 & H2 & H3 & H4 & H5 & K). exists wa, X, wb. do 5 (split; [assumption|]).
  intros f P C1 C2 Hn Hq. apply K; assumption.
Qed.

Lemma drops_no_from a e i i' : drops a e i i' -> is_from_b i = false /\ is_from_b i' = false.
Proof. intros H. destruct H; split; reflexivity. Qed.
Lemma front_no_from a e i i' : drops_front a e i i' -> is_from_b i = false /\ is_from_b i' = false.
Proof. intros H. destruct H; split; reflexivity. Qed.

(** ** Any of the two, in a document *)

Section Doc.
Variable unq : bytes -> option bytes.
Variable cuts : nat -> nat -> instruction -> instruction -> Prop.
Variable clean : bytes -> bytes -> Prop.

Hypothesis cuts_later : forall k m a e i i', cuts a e (later k m i) i' ->
  exists a0 e0 i0, a = k + a0 /\ e = k + e0 /\ i' = later k m i0 /\ cuts a0 e0 i i0.
Hypothesis cuts_no_from : forall a e i i', cuts a e i i' -> is_from_b i = false /\ is_from_b i' = false.
Hypothesis cuts_reads : forall p w s i i' a e, instruction_reads unq p w s i -> closed_end s -> cuts a e i i' ->
  exists wa X wb, w = wa ++ X ++ wb /\ wa <> [] /\ X <> [] /\ a = p + length wa /\ e = p + length wa + length X /\
  forall f P, carries f p p (length wa) -> carries f (p + length wa + length X) (p + length wa) (length wb) ->
  clean (P ++ wa) (wb ++ s) -> quotes_apart wa (wb ++ s) -> instruction_reads unq p (wa ++ wb) s (move_instruction f i').

Lemma cuts_numbered g a e i i' l2 : cuts a e i i' -> numbered 0 (i :: l2) = i :: l2 ->
  numbered 0 (move_instruction g i' :: map (move_instruction g) l2) = move_instruction g i' :: map (move_instruction g) l2.
Proof.
  intros Hp H. destruct (cuts_no_from _ _ _ _ Hp) as [N1 N2]. assert (H2 : numbered 0 l2 = l2) by (destruct i; try discriminate N1; cbn [numbered] in H; congruence).
  assert (E : numbered 0 (map (move_instruction g) l2) = map (move_instruction g) l2) by (apply numbered_fixed; [intros j; destruct j; reflexivity|exact H2]).
  destruct i'; try discriminate N2; cbn [move_instruction numbered]; rewrite E; reflexivity.
Qed.

Lemma drop_first b r i i' l a e : reading unq (b ++ r) l -> blanks b -> In i l -> s_start (instruction_span i) = length b -> cuts a e i i' ->
  exists wa X rest l2, r = wa ++ X ++ rest /\ X <> [] /\ a = length b + length wa /\ e = a + length X /\ l = i :: l2 /\
  (exists c wa', wa = c :: wa' /\ is_alpha c = true) /\
  forall P, clean (P ++ b ++ wa) rest -> quotes_apart (P ++ b ++ wa) rest ->
    let g := replacement a e 0 in
    reading unq (b ++ wa ++ rest) (move_instruction g i' :: map (move_instruction g) l2).
Proof.
  intros R Hb Hi Es Hp. destruct (document_first unq l i b r R Hb Hi Es) as (w & tail & l2 & -> & -> & Ri & Ht & K).
  destruct (cuts_reads _ _ _ _ _ _ _ Ri Ht Hp) as (wa & X & wb & -> & Hwa & HX & Ea & Ee & Put).
  pose proof (reads_head_letter unq _ _ _ _ [] Ri) as Hh.
  exists wa, X, (wb ++ tail), l2. split; [rewrite <- !app_assoc; reflexivity|]. split; [exact HX|]. split; [exact Ea|]. split; [lia|]. split; [reflexivity|].
  split; [destruct wa as [|c wa']; [congruence|]; cbn [app] in Hh; eauto|].
  intros P Hn Hq. cbv zeta. set (g := replacement a e 0). assert (HL : 0 < length X) by (destruct X; [congruence|cbn; lia]).
  assert (C1 : carries g (length b) (length b) (length wa)).
  { intros x Lx. unfold g, replacement. rewrite (proj2 (Nat.leb_le _ _)) by lia. reflexivity. }
  assert (C2 : forall m, carries g (length b + length wa + length X) (length b + length wa) m).
  { intros m x Lx. unfold g, replacement. rewrite (proj2 (Nat.leb_gt _ _)) by lia. lia. }
  replace (b ++ wa ++ wb ++ tail) with (b ++ (wa ++ wb) ++ tail) by (rewrite <- !app_assoc; reflexivity).
  apply K.
  - apply (Put g (P ++ b)); [exact C1|apply C2| |].
    + rewrite <- app_assoc. exact Hn.
    + apply (quotes_suffix (P ++ b)). rewrite <- app_assoc. exact Hq.
  - intros x Lx. rewrite !app_length. replace (length b + (length wa + (length X + length wb)) + x) with (length b + length wa + length X + (length wb + x)) by lia.
    rewrite (C2 (length wb + x)) by lia. lia.
Qed.

Lemma first_dropped b r d i i' a e : valid_utf8 (b ++ r) = true -> parse unq (b ++ r) = Ok d -> blanks b -> In i (d_instructions d) ->
  s_start (instruction_span i) = length b -> cuts a e i i' ->
  exists wa X rest l2, r = wa ++ X ++ rest /\ X <> [] /\ a = length b + length wa /\ e = a + length X /\ d_instructions d = i :: l2 /\
    (exists c wa', wa = c :: wa' /\ is_alpha c = true) /\
    forall P, valid_utf8 (b ++ wa ++ rest) = true -> clean (P ++ b ++ wa) rest -> quotes_apart (P ++ b ++ wa) rest ->
    let g := replacement a e 0 in
    exists d', parse unq (b ++ wa ++ rest) = Ok d' /\ d_content d' = b ++ wa ++ rest /\
      d_instructions d' = move_instruction g i' :: map (move_instruction g) l2.
Proof.
  intros V E Hb Hi Es Hp. pose proof (accepted_exact unq _ _ V E) as R.
  destruct (reading_parses unq _ _ V R) as (d2 & E2 & _ & En). rewrite E in E2. injection E2 as <-.
  destruct (drop_first b r i i' _ a e R Hb Hi Es Hp) as (wa & X & rest & l2 & -> & HX & Ea & Ee & El & Hc & K).
  exists wa, X, rest, l2. do 6 (split; [first [reflexivity|assumption]|]). intros P V' Hn Hq. cbv zeta in *.
  destruct (reading_parses unq _ _ V' (K P Hn Hq)) as (d' & E' & Ec' & El'). exists d'. split; [exact E'|]. split; [exact Ec'|].
  rewrite El'. apply (cuts_numbered _ _ _ _ _ _ Hp). rewrite <- El. symmetry. exact En.
Qed.

Theorem pairs_dropped input d i i' a e A B : valid_utf8 input = true -> parse unq input = Ok d -> In i (d_instructions d) ->
  cuts a e i i' -> A = firstn a input -> B = skipn e input -> clean A B -> quotes_apart A B ->
  lines_before (firstn (s_start (instruction_span i)) input) (skipn (s_start (instruction_span i)) input) ->
  a < e /\ e <= length input /\
  (valid_utf8 (A ++ B) = true ->
   let g := replacement a e 0 in
   exists l1 l2 d', d_instructions d = l1 ++ i :: l2 /\ parse unq (A ++ B) = Ok d' /\ d_content d' = A ++ B /\
     d_instructions d' = map (move_instruction g) (l1 ++ i' :: l2)).
Proof.
  intros V E Hi Hp EA EB Hn Hq (b & Hb & Hpre). pose proof (parse_content _ _ _ E) as Ec.
  pose proof (C03_spans_sliceable unq input d i (instruction_part i) V E Hi (or_introl eq_refl)) as S1. rewrite Ec in S1. cbn [instruction_part part_span] in S1.
  destruct S1 as (L1 & L2 & _). remember (s_start (instruction_span i)) as k eqn:Ek. remember (skipn k input) as r eqn:Er.
  assert (Lk : length (firstn k input) = k) by (apply firstn_length_le; lia).
  destruct Hpre as [Eb|(x & nl & Eb & Ca & Qa & Ba)].
  - pose proof (cut_input _ _ _ _ Eb (eq_sym Er)) as Ei. rewrite Eb in Lk. rewrite Ei in V, E.
    destruct (first_dropped b r d i i' a e V E Hb Hi (eq_trans (eq_sym Ek) (eq_sym Lk)) Hp) as (wa & X & rest & l2 & Ew & HX & Ea & Ee & El & _ & K).
    assert (Ei2 : input = (b ++ wa) ++ X ++ rest) by (rewrite Ei, Ew, <- app_assoc; reflexivity).
    destruct (at_cut (b ++ wa) X rest (Span a e)) as [F1 F2]; [unfold at_; rewrite app_length; f_equal; lia|]. cbn [s_start s_end] in F1, F2.
    rewrite <- Ei2, <- EA in F1. rewrite <- Ei2, <- EB in F2.
    assert (HL : 0 < length X) by (destruct X; [congruence|cbn; lia]).
    split; [lia|]. split; [rewrite Ei2, !app_length; lia|].
    intros V'. cbv zeta. rewrite F1, F2, <- app_assoc in V' |- *. rewrite F2 in Hq, Hn. rewrite F1 in Hq, Hn.
    destruct (K [] V' Hn Hq) as (d' & E' & Ec' & El'). exists [], l2, d'. cbn [map app]. auto.
  - pose proof (cut_input _ _ _ _ Eb (eq_sym Er)) as Ei. rewrite Eb in Lk. rewrite <- !app_assoc in Ei.
    destruct Ba as (Bn & Bcr & Blf). pose proof (newline_valid _ Bn) as Vn.
    assert (Va : valid_utf8 x = true).
    { rewrite Ei, app_assoc in V. apply (valid_utf8_app_l x nl); [|exact Vn]. apply (valid_lines _ _ V). apply Mirror.newline_ends_line. exact Bn. }
    assert (Vr : valid_utf8 (b ++ r) = true).
    { rewrite Ei, valid_utf8_app, valid_utf8_app in V; [exact V|exact Vn|exact Va]. }
    destruct (C56_joined unq x nl (b ++ r) Va Vr Ca Qa (conj Bn (conj Bcr Blf))) as (J1 & J2 & _).
    rewrite Ei in E. destruct (J2 d E) as (da & db & Ea & Edb). destruct (J1 da db Ea Edb) as (d0 & E0 & _ & El0 & _). rewrite E in E0. injection E0 as <-.
    set (kk := length (x ++ nl)) in *. set (m := count_from (d_instructions da)) in *.
    assert (Lk' : k = kk + length b) by (rewrite <- Lk; unfold kk; rewrite !app_length; lia).
    assert (Hin : exists i0, In i0 (d_instructions db) /\ i = later kk m i0).
    { rewrite El0 in Hi. apply in_app_or in Hi. destruct Hi as [Hi|Hi]; [exfalso|apply in_map_iff in Hi; destruct Hi as (i0 & K1 & K2); eauto].
      pose proof (C03_spans_sliceable unq x da i (instruction_part i) Va Ea Hi (or_introl eq_refl)) as S2. rewrite (parse_content _ _ _ Ea) in S2.
      cbn [instruction_part part_span] in S2. destruct S2 as (L3 & L4 & _). unfold kk in Lk'. rewrite app_length in Lk'.
      assert (0 < length nl) by (destruct Bn; cbn; lia). lia. }
    destruct Hin as (i0 & Hi0 & Eii). rewrite Eii, later_start in Ek. rewrite Eii in Hp.
    destruct (cuts_later _ _ _ _ _ _ Hp) as (a0 & e0 & i1 & Ea0 & Ee0 & Ei1 & Hp0).
    destruct (first_dropped b r db i0 i1 a0 e0 Vr Edb Hb Hi0 ltac:(lia) Hp0) as (wa & X & rest & l2 & Ew & HX & Ea1 & Ee1 & El & (c & wa' & Ewa & Hc) & K).
    assert (Ei2 : input = (x ++ nl ++ b ++ wa) ++ X ++ rest) by (rewrite Ei, Ew, <- !app_assoc; reflexivity).
    destruct (at_cut (x ++ nl ++ b ++ wa) X rest (Span a e)) as [F1 F2].
    { unfold at_, kk in *. rewrite !app_length in *. f_equal; lia. }
    cbn [s_start s_end] in F1, F2. rewrite <- Ei2, <- EA in F1. rewrite <- Ei2, <- EB in F2.
    assert (HL : 0 < length X) by (destruct X; [congruence|cbn; lia]).
    split; [lia|]. split; [rewrite Ei2; unfold kk in *; rewrite !app_length in *; lia|].
    intros V'. cbv zeta. rewrite F1, F2 in *. rewrite <- !app_assoc in V' |- *.
    assert (Vr' : valid_utf8 (b ++ wa ++ rest) = true).
    { rewrite valid_utf8_app, valid_utf8_app in V'; [exact V'|exact Vn|exact Va]. }
    destruct (K (x ++ nl) Vr') as (db' & E' & Ec' & El'); [rewrite <- !app_assoc; exact Hn|rewrite <- !app_assoc; exact Hq|].
    assert (Ba' : breaks x nl (b ++ wa ++ rest)).
    { split; [exact Bn|]. split; [|exact Blf]. intros K1 (q & K2). apply (Bcr K1). rewrite Ew, Ewa. rewrite Ewa in K2. destruct b as [|b0 b]; cbn [app] in *.
      - injection K2 as -> _. eexists; reflexivity.
      - injection K2 as -> _. eexists; reflexivity. }
    assert (Qa' : quotes_apart x (nl ++ b ++ wa ++ rest)).
    { replace (nl ++ b ++ wa ++ rest) with ((nl ++ b ++ wa) ++ [] ++ rest) by (rewrite <- !app_assoc; reflexivity).
      apply (quotes_extend x (nl ++ b ++ wa) X [] rest); [rewrite <- !app_assoc, <- Ew; exact Qa|exact Hq]. }
    destruct (C56_joined unq x nl (b ++ wa ++ rest) Va Vr' Ca Qa' Ba') as (J1' & _ & _).
    destruct (J1' da db' Ea E') as (d' & Ed' & Ecd' & Eld' & _). exists (d_instructions da), (map (later kk m) l2), d'.
    split; [rewrite El0, El, Eii; reflexivity|]. split; [exact Ed'|]. split; [exact Ecd'|].
    assert (Hg : forall z, replacement a e 0 (kk + z) = kk + replacement a0 e0 0 z).
    { intros z. rewrite Ea0, Ee0. unfold replacement.
      destruct (Nat.leb_spec (kk + z) (kk + a0)); destruct (Nat.leb_spec z a0); lia. }
    rewrite Eld', El', map_app. cbn [map]. fold kk m. f_equal; [|f_equal].
    + symmetry. apply (kept unq x da _ Va Ea). intros z Lz. unfold replacement. rewrite (proj2 (Nat.leb_le _ _)); [reflexivity|].
      rewrite Ea0. unfold kk. rewrite app_length. lia.
    + rewrite Ei1. symmetry. apply move_later. exact Hg.
    + rewrite !map_map. apply map_ext. intros j. symmetry. apply move_later. exact Hg.
Qed.

End Doc.
