(** A name replaced in a document: the lines before it, its own line, the lines after it. *)

From Coq Require Import String.
From Verif Require Import Bytes BytesFacts Result Ast Convert Dockerfile SpecImage SpecSyntax SpecClear SpecExact SpecMove SpecSplice SpecJoin SpecValues SpecKeys
  Forward Forward3 Sound Exact Exact3 Exact7 Exact8 SpecDoc SpecParts DocFacts ParseEdit PropsParse PropsDoc PropsJoin PropsBlocks ReadsMove ValuesFacts
  ValuesDoc KeysFacts.
Local Open Scope nat_scope.

Section Doc.
Variable unq : bytes -> option bytes.

Lemma with_name_later sp v k m i : with_name (move_span (fun x => k + x) sp) v (later k m i) = later k m (with_name sp v i).
Proof.
  assert (St : forall s, put_string (move_span (fun x => k + x) sp) v (move_string (fun x => k + x) s) = move_string (fun x => k + x) (put_string sp v s)).
  { intros [[a b] c]. destruct sp as [a2 b2]. unfold put_string, move_string, move_span. cbn [ss_span ss_content s_start s_end].
    destruct (span_eq_dec (Span a b) (Span a2 b2)) as [E|E]; destruct (span_eq_dec (Span (k + a) (k + b)) (Span (k + a2) (k + b2))) as [E'|E']; try reflexivity.
    - exfalso. apply E'. injection E as -> ->. reflexivity.
    - exfalso. apply E. injection E' as H1 H2. f_equal; lia. }
  destruct i as [x|x|x|x|x|x|x|x|x]; try reflexivity; unfold later; cbn [move_instruction with_name]; f_equal; unfold move_arg, rename_arg;
    cbn [label_span label_labels env_span env_vars arg_span arg_name arg_value]; f_equal.
  - apply St.
  - rewrite !map_map. apply map_ext. intros l. unfold rename_label, move_label. cbn [lb_span lb_name lb_value]. rewrite St. reflexivity.
  - rewrite !map_map. apply map_ext. intros l. unfold rename_env, move_env. cbn [ev_span ev_key ev_value]. rewrite St. reflexivity.
Qed.

Lemma name_place_later k m i sp : name_place (later k m i) sp -> exists sp0, sp = move_span (fun x => k + x) sp0 /\ name_place i sp0.
Proof.
  destruct i as [x|x|x|x|x|x|x|x|x]; unfold later; cbn [move_instruction name_place]; intros H; try contradiction.
  - exists (ss_span (arg_name x)). split; [symmetry; exact H|reflexivity].
  - destruct H as (s & Hs & <-). cbn [label_labels] in Hs. apply in_map_iff in Hs. destruct Hs as (l0 & <- & Hl). exists (ss_span (lb_name l0)). split; [reflexivity|eauto].
  - destruct H as (s & Hs & <-). cbn [env_vars] in Hs. apply in_map_iff in Hs. destruct Hs as (l0 & <- & Hl). exists (ss_span (ev_key l0)). split; [reflexivity|eauto].
Qed.

Lemma name_text_later after k m i t v : name_text unq after (later k m i) t v <-> name_text unq after i t v.
Proof. destruct i; reflexivity. Qed.

Lemma renamed_numbered g sp v i l2 : name_place i sp -> numbered 0 (i :: l2) = i :: l2 ->
  numbered 0 (move_instruction g (with_name sp v i) :: map (move_instruction g) l2) = move_instruction g (with_name sp v i) :: map (move_instruction g) l2.
Proof.
  intros Hp H. assert (H2 : numbered 0 l2 = l2) by (destruct i; try (destruct Hp; fail); cbn [numbered] in H; congruence).
  assert (E : numbered 0 (map (move_instruction g) l2) = map (move_instruction g) l2) by (apply numbered_fixed; [intros j; destruct j; reflexivity|exact H2]).
  destruct i; try (destruct Hp; fail); cbn [with_name move_instruction numbered]; rewrite E; reflexivity.
Qed.

Lemma name_first b r i l sp t v : reading unq (b ++ r) l -> blanks b -> In i l -> s_start (instruction_span i) = length b -> name_place i sp ->
  exists wa X rest l2, r = wa ++ X ++ rest /\ X <> [] /\ sp = at_ (length b + length wa) X /\ l = i :: l2 /\ s_end (instruction_span i) <= length (b ++ r) /\ 
  (exists c wa', wa = c :: wa' /\ is_alpha c = true) /\
  forall P, name_text unq rest i t v -> quotes_apart (P ++ b ++ wa) (t ++ rest) ->
    let g := replacement (s_start sp) (s_end sp) (length t) in
    reading unq (b ++ wa ++ t ++ rest) (move_instruction g (with_name sp v i) :: map (move_instruction g) l2).
Proof.
  intros R Hb Hi Es Hp. destruct (document_first unq l i b r R Hb Hi Es) as (w & tail & l2 & -> & -> & Ri & Ht & K).
  set (g := replacement (s_start sp) (s_end sp) (length t)).
  destruct (instruction_renamed unq g sp t v _ _ _ _ Ri Hp) as (wa & X & wb & -> & HX & Hwa & Esp & Put).
  pose proof (reads_head_letter unq _ _ _ _ [] Ri) as Hh. 
  exists wa, X, (wb ++ tail), l2. split; [rewrite <- !app_assoc; reflexivity|]. split; [exact HX|]. split; [exact Esp|]. split; [reflexivity|].
  split; [rewrite (reads_span unq _ _ _ _ Ri); cbn [at_ s_end]; rewrite !app_length; lia|].
  split; [destruct wa as [|c wa']; [congruence|]; cbn [app] in Hh; eauto|].
  intros P Hv Hq. cbv zeta. assert (HL : 0 < length X) by (destruct X; [congruence|cbn; lia]).
  assert (C1 : carries g (length b) (length b) (length wa)).
  { intros a La. unfold g, replacement. rewrite Esp. cbn [at_ s_start s_end]. rewrite (proj2 (Nat.leb_le _ _)) by lia. reflexivity. }
  assert (C2 : forall m, carries g (length b + length wa + length X) (length b + length wa + length t) m).
  { intros m a La. unfold g, replacement. rewrite Esp. cbn [at_ s_start s_end]. rewrite (proj2 (Nat.leb_gt _ _)) by lia. lia. }
  replace (b ++ wa ++ t ++ wb ++ tail) with (b ++ (wa ++ t ++ wb) ++ tail) by (rewrite <- !app_assoc; reflexivity).
  apply K.
  - apply Put; [exact Hv| |split; [exact C1|apply C2]].
    apply (quotes_suffix (P ++ b)). rewrite <- app_assoc. exact Hq.
  - intros a La. rewrite !app_length. replace (length b + (length wa + (length X + length wb)) + a) with (length b + length wa + length X + (length wb + a)) by lia.
    rewrite (C2 (length wb + a)) by lia. lia.
Qed.

(** The first line of [b ++ r], as a document *)
Lemma first_renamed b r d i sp t v : valid_utf8 (b ++ r) = true -> parse unq (b ++ r) = Ok d -> blanks b -> In i (d_instructions d) ->
  s_start (instruction_span i) = length b -> name_place i sp ->
  exists wa X rest l2, r = wa ++ X ++ rest /\ X <> [] /\ sp = at_ (length b + length wa) X /\ d_instructions d = i :: l2 /\
    (exists c wa', wa = c :: wa' /\ is_alpha c = true) /\
    forall P, valid_utf8 (b ++ wa ++ t ++ rest) = true -> name_text unq rest i t v -> quotes_apart (P ++ b ++ wa) (t ++ rest) ->
    let g := replacement (s_start sp) (s_end sp) (length t) in
    exists d', parse unq (b ++ wa ++ t ++ rest) = Ok d' /\ d_content d' = b ++ wa ++ t ++ rest /\
      d_instructions d' = move_instruction g (with_name sp v i) :: map (move_instruction g) l2.
Proof.
  intros V E Hb Hi Es Hp. pose proof (accepted_exact unq _ _ V E) as R.
  destruct (reading_parses unq _ _ V R) as (d2 & E2 & _ & En). rewrite E in E2. injection E2 as <-.
  destruct (name_first b r i _ sp t v R Hb Hi Es Hp) as (wa & X & rest & l2 & -> & HX & Esp & El & _ & Hc & K).
  exists wa, X, rest, l2. do 5 (split; [first [reflexivity|assumption]|]). intros P V' Hv Hq. cbv zeta in *.
  destruct (reading_parses unq _ _ V' (K P Hv Hq)) as (d' & E' & Ec' & El'). exists d'. split; [exact E'|]. split; [exact Ec'|].
  rewrite El'. apply renamed_numbered; [exact Hp|]. rewrite <- El. symmetry. exact En.
Qed.

Theorem name_replaced input d i sp t v A B : valid_utf8 input = true -> parse unq input = Ok d -> In i (d_instructions d) ->
  name_place i sp -> A = firstn (s_start sp) input -> B = skipn (s_end sp) input ->
  name_text unq B i t v -> quotes_apart A (t ++ B) ->
  lines_before (firstn (s_start (instruction_span i)) input) (skipn (s_start (instruction_span i)) input) ->
  s_start sp < s_end sp /\ s_end sp <= length input /\
  (valid_utf8 (A ++ t ++ B) = true ->
   let g := replacement (s_start sp) (s_end sp) (length t) in
   exists l1 l2 d', d_instructions d = l1 ++ i :: l2 /\ parse unq (A ++ t ++ B) = Ok d' /\ d_content d' = A ++ t ++ B /\
     d_instructions d' = map (move_instruction g) l1 ++ move_instruction g (with_name sp v i) :: map (move_instruction g) l2).
Proof.
  intros V E Hi Hp EA EB Hv Hq (b & Hb & Hpre). pose proof (parse_content _ _ _ E) as Ec.
  pose proof (C03_spans_sliceable unq input d i (instruction_part i) V E Hi (or_introl eq_refl)) as S1. rewrite Ec in S1. cbn [instruction_part part_span] in S1.
  destruct S1 as (L1 & L2 & _). remember (s_start (instruction_span i)) as k eqn:Ek. remember (skipn k input) as r eqn:Er.
  assert (Lk : length (firstn k input) = k) by (apply firstn_length_le; lia).
  destruct Hpre as [Eb|(a & n & Eb & Ca & Qa & Ba)].
  - pose proof (cut_input _ _ _ _ Eb (eq_sym Er)) as Ei. rewrite Eb in Lk. rewrite Ei in V, E.
    destruct (first_renamed b r d i sp t v V E Hb Hi (eq_trans (eq_sym Ek) (eq_sym Lk)) Hp) as (wa & X & rest & l2 & Ew & HX & Esp & El & _ & K).
    assert (Ei2 : input = (b ++ wa) ++ X ++ rest) by (rewrite Ei, Ew, <- app_assoc; reflexivity).
    destruct (at_cut (b ++ wa) X rest sp) as [F1 F2]; [rewrite app_length; exact Esp|]. rewrite <- Ei2, <- EA in F1. rewrite <- Ei2, <- EB in F2.
    assert (HL : 0 < length X) by (destruct X; [congruence|cbn; lia]).
    split; [rewrite Esp; cbn [at_ s_start s_end]; lia|]. split; [rewrite Esp, Ei2; cbn [at_ s_end]; rewrite !app_length; lia|].
    intros V'. cbv zeta. rewrite F1, F2, <- app_assoc in V' |- *. rewrite F2 in Hv, Hq. rewrite F1 in Hq.
    destruct (K [] V' Hv Hq) as (d' & E' & Ec' & El'). exists [], l2, d'. cbn [map app]. auto.
  - pose proof (cut_input _ _ _ _ Eb (eq_sym Er)) as Ei. rewrite Eb in Lk. rewrite <- !app_assoc in Ei.
    destruct Ba as (Bn & Bcr & Blf). pose proof (newline_valid _ Bn) as Vn.
    assert (Va : valid_utf8 a = true).
    { rewrite Ei, app_assoc in V. apply (valid_utf8_app_l a n); [|exact Vn]. apply (valid_lines _ _ V). apply Mirror.newline_ends_line. exact Bn. }
    assert (Vr : valid_utf8 (b ++ r) = true).
    { rewrite Ei, valid_utf8_app, valid_utf8_app in V; [exact V|exact Vn|exact Va]. }
    destruct (C56_joined unq a n (b ++ r) Va Vr Ca Qa (conj Bn (conj Bcr Blf))) as (J1 & J2 & _).
    rewrite Ei in E. destruct (J2 d E) as (da & db & Ea & Edb). destruct (J1 da db Ea Edb) as (d0 & E0 & _ & El0 & _). rewrite E in E0. injection E0 as <-.
    set (kk := length (a ++ n)) in *. set (m := count_from (d_instructions da)) in *.
    assert (Lk' : k = kk + length b) by (rewrite <- Lk; unfold kk; rewrite !app_length; lia).
    assert (Hin : exists i0, In i0 (d_instructions db) /\ i = later kk m i0).
    { rewrite El0 in Hi. apply in_app_or in Hi. destruct Hi as [Hi|Hi]; [exfalso|apply in_map_iff in Hi; destruct Hi as (i0 & K1 & K2); eauto].
      pose proof (C03_spans_sliceable unq a da i (instruction_part i) Va Ea Hi (or_introl eq_refl)) as S2. rewrite (parse_content _ _ _ Ea) in S2.
      cbn [instruction_part part_span] in S2. destruct S2 as (L3 & L4 & _). unfold kk in Lk'. rewrite app_length in Lk'.
      assert (0 < length n) by (destruct Bn; cbn; lia). lia. }
    destruct Hin as (i0 & Hi0 & Eii). rewrite Eii, later_start in Ek. rewrite Eii in Hp. destruct (name_place_later _ _ _ _ Hp) as (sp0 & Esp0 & Hp0).
    destruct (first_renamed b r db i0 sp0 t v Vr Edb Hb Hi0 ltac:(lia) Hp0) as (wa & X & rest & l2 & Ew & HX & Esp & El & (c & wa' & Ewa & Hc) & K).
    assert (Ei2 : input = (a ++ n ++ b ++ wa) ++ X ++ rest) by (rewrite Ei, Ew, <- !app_assoc; reflexivity).
    destruct (at_cut (a ++ n ++ b ++ wa) X rest sp) as [F1 F2].
    { rewrite Esp0, Esp. unfold at_, move_span, kk. cbn [s_start s_end]. rewrite !app_length. f_equal; lia. }
    rewrite <- Ei2, <- EA in F1. rewrite <- Ei2, <- EB in F2.
    assert (HL : 0 < length X) by (destruct X; [congruence|cbn; lia]).
    split; [rewrite Esp0, Esp; cbn [move_span at_ s_start s_end]; lia|].
    split; [rewrite Esp0, Esp, Ei2; unfold kk; cbn [move_span at_ s_end]; rewrite !app_length; lia|].
    intros V'. cbv zeta. rewrite F1, F2 in *. rewrite <- !app_assoc in V' |- *.
    assert (Vr' : valid_utf8 (b ++ wa ++ t ++ rest) = true).
    { rewrite valid_utf8_app, valid_utf8_app in V'; [exact V'|exact Vn|exact Va]. }
    rewrite Eii in Hv. apply name_text_later in Hv.
    destruct (K (a ++ n) Vr') as (db' & E' & Ec' & El'); [exact Hv|rewrite <- !app_assoc; exact Hq|].
    assert (Ba' : breaks a n (b ++ wa ++ t ++ rest)).
    { split; [exact Bn|]. split; [|exact Blf]. intros K1 (y & K2). apply (Bcr K1). rewrite Ew, Ewa. rewrite Ewa in K2. destruct b as [|b0 b]; cbn [app] in *.
      - injection K2 as -> _. eexists; reflexivity.
      - injection K2 as -> _. eexists; reflexivity. }
    assert (Qa' : quotes_apart a (n ++ b ++ wa ++ t ++ rest)).
    { replace (n ++ b ++ wa ++ t ++ rest) with ((n ++ b ++ wa) ++ t ++ rest) by (rewrite <- !app_assoc; reflexivity).
      apply (quotes_extend a (n ++ b ++ wa) X t rest); [rewrite <- !app_assoc, <- Ew; exact Qa|exact Hq]. }
    destruct (C56_joined unq a n (b ++ wa ++ t ++ rest) Va Vr' Ca Qa' Ba') as (J1' & _ & _).
    destruct (J1' da db' Ea E') as (d' & Ed' & Ecd' & Eld' & _). exists (d_instructions da), (map (later kk m) l2), d'.
    split; [rewrite El0, El, Eii; reflexivity|]. split; [exact Ed'|]. split; [exact Ecd'|].
    assert (Hg : forall x, replacement (s_start sp) (s_end sp) (length t) (kk + x) = kk + replacement (s_start sp0) (s_end sp0) (length t) x).
    { intros x. rewrite Esp0. unfold replacement, move_span. cbn [s_start s_end].
      destruct (Nat.leb_spec (kk + x) (kk + s_start sp0)); destruct (Nat.leb_spec x (s_start sp0)); lia. }
    rewrite Eld', El'. cbn [map]. fold kk m. f_equal; [|f_equal].
    + symmetry. apply (kept unq a da _ Va Ea). intros x Lx. unfold replacement. rewrite (proj2 (Nat.leb_le _ _)); [reflexivity|].
      rewrite Esp0, Esp. unfold kk. cbn [move_span at_ s_start]. rewrite app_length. lia.
    + rewrite Eii, Esp0, with_name_later. rewrite <- Esp0. symmetry. apply move_later. exact Hg.
    + rewrite !map_map. apply map_ext. intros j. symmetry. apply move_later. exact Hg.
Qed.

End Doc.
