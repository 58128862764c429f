(** One more pair in a document: the lines before it, its own line, the lines after it. *)

From Coq Require Import String.
From Verif Require Import Bytes BytesFacts Result Ast Convert Dockerfile SpecImage SpecSyntax SpecClear SpecExact SpecMove SpecSplice SpecJoin SpecValues SpecKeys SpecGrow
  Forward Forward3 Sound Exact Exact3 Exact7 Exact8 SpecDoc SpecParts DocFacts ParseEdit PropsParse PropsDoc PropsJoin PropsBlocks ReadsMove ValuesFacts
  ValuesDoc KeysFacts GrowFacts.
Local Open Scope nat_scope.

Section Doc.
Variable unq : bytes -> option bytes.
Variables t u v y : bytes.
Notation n := (length (more_text t u)).

Lemma nth_error_past (c0 r : bytes) x c : nth_error (c0 ++ r) (length c0 + x) = Some c -> nth_error r x = Some c.
Proof. rewrite nth_error_app2 by lia. replace (length c0 + x - length c0) with x by lia. auto. Qed.

Lemma span_past k c sp : longer k (move_span (fun x => c + x) sp) = move_span (fun x => c + x) (longer k sp).
Proof. unfold longer, move_span. cbn [s_start s_end]. f_equal. lia. Qed.

Lemma move_twice k c i : move_instruction (further k) (move_instruction (fun x => c + x) i) = move_instruction (fun x => c + x) (move_instruction (further k) i).
Proof. rewrite !move_instruction_comp. apply move_instruction_ext. intros x. unfold further. lia. Qed.

Lemma move_label_twice k c l : move_label (further k) (move_label (fun x => c + x) l) = move_label (fun x => c + x) (move_label (further k) l).
Proof.
  pose proof (move_twice k c (ILabel (LabelInstruction (Span 0 0) [l]))) as E. cbn [move_instruction label_labels label_span map] in E.
  remember (move_label (further k) (move_label (fun x => c + x) l)) as a. remember (move_label (fun x => c + x) (move_label (further k) l)) as b. injection E as _ _ E. exact E.
Qed.

Lemma move_env_twice k c l : move_env (further k) (move_env (fun x => c + x) l) = move_env (fun x => c + x) (move_env (further k) l).
Proof.
  pose proof (move_twice k c (IEnv (EnvInstruction (Span 0 0) [l]))) as E. cbn [move_instruction env_vars env_span map] in E.
  remember (move_env (further k) (move_env (fun x => c + x) l)) as a. remember (move_env (fun x => c + x) (move_env (further k) l)) as b. injection E as _ _ E. exact E.
Qed.

Lemma new_label_past c a : new_label (c + a) t u v y = move_label (fun x => c + x) (new_label a t u v y).
Proof.
  unfold new_label, move_label, move_string, move_span, at_. cbn [lb_span lb_name lb_value ss_span ss_content s_start s_end].
  replace (S (c + a)) with (c + S a) by lia. rewrite !Nat.add_assoc. reflexivity.
Qed.

Lemma new_var_past c a : new_var (c + a) t u v y = move_env (fun x => c + x) (new_var a t u v y).
Proof.
  unfold new_var, move_env, move_breakable, move_string, move_span, at_.
  cbn [ev_span ev_key ev_value br_span br_components map move_component move_string move_span ss_span ss_content s_start s_end].
  replace (S (c + a)) with (c + S a) by lia. unfold move_string, move_span. cbn [ss_span ss_content s_start s_end]. rewrite !Nat.add_assoc. reflexivity.
Qed.

Lemma adds_later c0 r m a i i' : adds unq (c0 ++ r) a t u v y (later (length c0) m i) i' ->
  exists a0 i0, a = length c0 + a0 /\ i' = later (length c0) m i0 /\ adds unq r a0 t u v y i i0.
Proof.
  intros H. remember (later (length c0) m i) as j eqn:Ej.
  destruct H as [x l1 l l2 El Ea He Hn Hu|x l1 e l2 El Ea He Hn Hv Hu Hy]; destruct i as [z|z|z|z|z|z|z|z|z]; try discriminate Ej;
    unfold later in Ej; cbn [move_instruction] in Ej; injection Ej as ->; cbn [label_labels label_span env_vars env_span] in *.
  - apply map_eq_app in El. destruct El as (m1 & m2' & Ez & <- & E2). apply map_eq_cons in E2. destruct E2 as (l0 & m2 & -> & <- & <-).
    exists (s_end (lb_span l0)), (ILabel (LabelInstruction (longer n (label_span z)) (m1 ++ l0 :: new_label (s_end (lb_span l0)) t u v y :: map (move_label (further n)) m2))).
    split; [symmetry; exact Ea|]. split.
    + unfold later. cbn [move_instruction label_labels label_span]. rewrite span_past, <- Ea, map_app. cbn [map].
      change (s_end (lb_span (move_label (fun x => length c0 + x) l0))) with (length c0 + s_end (lb_span l0)). rewrite new_label_past. rewrite (map_map (move_label (fun x => length c0 + x))), (map_map (move_label (further n))).
      rewrite (map_ext _ _ (fun q => move_label_twice n (length c0) q)). reflexivity.
    + apply (adds_label unq r _ t u v y z m1 l0 m2 Ez eq_refl); [|exact Hn|exact Hu]. exact (nth_error_past _ _ _ _ He).
  - apply map_eq_app in El. destruct El as (m1 & m2' & Ez & <- & E2). apply map_eq_cons in E2. destruct E2 as (l0 & m2 & -> & <- & <-).
    exists (s_end (ev_span l0)), (IEnv (EnvInstruction (longer n (env_span z)) (m1 ++ l0 :: new_var (s_end (ev_span l0)) t u v y :: map (move_env (further n)) m2))).
    split; [symmetry; exact Ea|]. split.
    + unfold later. cbn [move_instruction env_vars env_span]. rewrite span_past, <- Ea, map_app. cbn [map].
      change (s_end (ev_span (move_env (fun x => length c0 + x) l0))) with (length c0 + s_end (ev_span l0)). rewrite new_var_past. rewrite (map_map (move_env (fun x => length c0 + x))), (map_map (move_env (further n))).
      rewrite (map_ext _ _ (fun q => move_env_twice n (length c0) q)). reflexivity.
    + apply (adds_var unq r _ t u v y z m1 l0 m2 Ez eq_refl); [exact (nth_error_past _ _ _ _ He)|assumption..].
Qed.

Lemma grown_first b r i i' l a : reading unq (b ++ r) l -> blanks b -> In i l -> s_start (instruction_span i) = length b ->
  adds unq (b ++ r) a t u v y i i' ->
  exists wa rest l2, r = wa ++ rest /\ a = length b + length wa /\ l = i :: l2 /\ (exists c wa', wa = c :: wa' /\ is_alpha c = true) /\
  forall P, quotes_apart (P ++ b ++ wa) (more_text t u ++ rest) ->
    reading unq (b ++ wa ++ more_text t u ++ rest) (i' :: map (move_instruction (further n)) l2).
Proof.
  intros R Hb Hi Es Hp. destruct (document_first unq l i b r R Hb Hi Es) as (w & tail & l2 & -> & -> & Ri & Ht & K).
  destruct (instruction_grown unq t u v y b _ _ _ _ _ _ Ri eq_refl Hp) as (wa & wb & -> & Hwa & Ea & Put).
  pose proof (reads_head_letter unq _ _ _ _ [] Ri) as Hh.
  exists wa, (wb ++ tail), l2. split; [rewrite <- !app_assoc; reflexivity|]. split; [exact Ea|]. split; [reflexivity|].
  split; [destruct wa as [|c wa']; [congruence|]; cbn [app] in Hh; eauto|].
  intros P Hq. replace (b ++ wa ++ more_text t u ++ wb ++ tail) with (b ++ (wa ++ more_text t u ++ wb) ++ tail) by (rewrite <- !app_assoc; reflexivity).
  apply K.
  - apply Put. apply (quotes_suffix (P ++ b)). rewrite <- app_assoc. exact Hq.
  - intros x _. unfold further. rewrite !app_length. lia.
Qed.

Lemma adds_numbered c a i i' l2 : adds unq c a t u v y i i' -> numbered 0 (i :: l2) = i :: l2 ->
  numbered 0 (i' :: map (move_instruction (further n)) l2) = i' :: map (move_instruction (further n)) l2.
Proof.
  intros Hp H. assert (H2 : numbered 0 l2 = l2) by (destruct Hp; cbn [numbered] in H; congruence).
  assert (E : numbered 0 (map (move_instruction (further n)) l2) = map (move_instruction (further n)) l2) by (apply numbered_fixed; [intros j; destruct j; reflexivity|exact H2]).
  destruct Hp; cbn [numbered]; rewrite E; reflexivity.
Qed.

Lemma first_grown b r d i i' a : valid_utf8 (b ++ r) = true -> parse unq (b ++ r) = Ok d -> blanks b -> In i (d_instructions d) ->
  s_start (instruction_span i) = length b -> adds unq (b ++ r) a t u v y i i' ->
  exists wa rest l2, r = wa ++ rest /\ a = length b + length wa /\ d_instructions d = i :: l2 /\
    (exists c wa', wa = c :: wa' /\ is_alpha c = true) /\
    forall P, valid_utf8 (b ++ wa ++ more_text t u ++ rest) = true -> quotes_apart (P ++ b ++ wa) (more_text t u ++ rest) ->
    exists d', parse unq (b ++ wa ++ more_text t u ++ rest) = Ok d' /\ d_content d' = b ++ wa ++ more_text t u ++ rest /\
      d_instructions d' = i' :: map (move_instruction (further n)) l2.
Proof.
  intros V E Hb Hi Es Hp. pose proof (accepted_exact unq _ _ V E) as R.
  destruct (reading_parses unq _ _ V R) as (d2 & E2 & _ & En). rewrite E in E2. injection E2 as <-.
  destruct (grown_first b r i i' _ a R Hb Hi Es Hp) as (wa & rest & l2 & -> & Ea & El & Hc & K).
  exists wa, rest, l2. do 4 (split; [first [reflexivity|assumption]|]). intros P V' Hq.
  destruct (reading_parses unq _ _ V' (K P Hq)) as (d' & E' & Ec' & El'). exists d'. split; [exact E'|]. split; [exact Ec'|].
  rewrite El'. apply (adds_numbered _ _ _ _ _ Hp). rewrite <- El. symmetry. exact En.
Qed.

Lemma here_cut (x z : bytes) a : a = length x -> firstn a (x ++ z) = x /\ skipn a (x ++ z) = z.
Proof. intros ->. rewrite firstn_app, firstn_all, Nat.sub_diag, skipn_app, skipn_all, Nat.sub_diag. cbn [firstn skipn]. rewrite app_nil_r. auto. Qed.

Theorem pair_added input d i i' a A B : valid_utf8 input = true -> parse unq input = Ok d -> In i (d_instructions d) ->
  adds unq input a t u v y i i' -> A = firstn a input -> B = skipn a input -> quotes_apart A (more_text t u ++ B) ->
  lines_before (firstn (s_start (instruction_span i)) input) (skipn (s_start (instruction_span i)) input) ->
  valid_utf8 (A ++ more_text t u ++ B) = true ->
  exists l1 l2 d', d_instructions d = l1 ++ i :: l2 /\ parse unq (A ++ more_text t u ++ B) = Ok d' /\ d_content d' = A ++ more_text t u ++ B /\
    d_instructions d' = l1 ++ i' :: map (move_instruction (further n)) l2.
Proof.
  intros V E Hi Hp EA EB Hq (b & Hb & Hpre). pose proof (parse_content _ _ _ E) as Ec.
  pose proof (C03_spans_sliceable unq input d i (instruction_part i) V E Hi (or_introl eq_refl)) as S1. rewrite Ec in S1. cbn [instruction_part part_span] in S1.
  destruct S1 as (L1 & L2 & _). remember (s_start (instruction_span i)) as k eqn:Ek. remember (skipn k input) as r eqn:Er.
  assert (Lk : length (firstn k input) = k) by (apply firstn_length_le; lia).
  destruct Hpre as [Eb|(x & nl & Eb & Ca & Qa & Ba)].
  - pose proof (cut_input _ _ _ _ Eb (eq_sym Er)) as Ei. rewrite Eb in Lk. rewrite Ei in V, E, Hp.
    destruct (first_grown b r d i i' a V E Hb Hi (eq_trans (eq_sym Ek) (eq_sym Lk)) Hp) as (wa & rest & l2 & Ew & Ea & El & _ & K).
    assert (Ei2 : input = (b ++ wa) ++ rest) by (rewrite Ei, Ew, <- app_assoc; reflexivity).
    destruct (here_cut (b ++ wa) rest a) as [F1 F2]; [rewrite app_length; exact Ea|]. rewrite <- Ei2, <- EA in F1. rewrite <- Ei2, <- EB in F2.
    intros V'. rewrite F1, F2, <- app_assoc in V' |- *. rewrite F1, F2 in Hq.
    destruct (K [] V' Hq) as (d' & E' & Ec' & El'). exists [], l2, d'. cbn [app]. auto.
  - pose proof (cut_input _ _ _ _ Eb (eq_sym Er)) as Ei. rewrite Eb in Lk. rewrite <- !app_assoc in Ei.
    destruct Ba as (Bn & Bcr & Blf). pose proof (newline_valid _ Bn) as Vn.
    assert (Va : valid_utf8 x = true).
    { rewrite Ei, app_assoc in V. apply (valid_utf8_app_l x nl); [|exact Vn]. apply (valid_lines _ _ V). apply Mirror.newline_ends_line. exact Bn. }
    assert (Vr : valid_utf8 (b ++ r) = true).
    { rewrite Ei, valid_utf8_app, valid_utf8_app in V; [exact V|exact Vn|exact Va]. }
    destruct (C56_joined unq x nl (b ++ r) Va Vr Ca Qa (conj Bn (conj Bcr Blf))) as (J1 & J2 & _).
    rewrite Ei in E. destruct (J2 d E) as (da & db & Ea & Edb). destruct (J1 da db Ea Edb) as (d0 & E0 & _ & El0 & _). rewrite E in E0. injection E0 as <-.
    set (kk := length (x ++ nl)) in *. set (m := count_from (d_instructions da)) in *.
    assert (Lk' : k = kk + length b) by (rewrite <- Lk; unfold kk; rewrite !app_length; lia).
    assert (Hin : exists i0, In i0 (d_instructions db) /\ i = later kk m i0).
    { rewrite El0 in Hi. apply in_app_or in Hi. destruct Hi as [Hi|Hi]; [exfalso|apply in_map_iff in Hi; destruct Hi as (i0 & K1 & K2); eauto].
      pose proof (C03_spans_sliceable unq x da i (instruction_part i) Va Ea Hi (or_introl eq_refl)) as S2. rewrite (parse_content _ _ _ Ea) in S2.
      cbn [instruction_part part_span] in S2. destruct S2 as (L3 & L4 & _). unfold kk in Lk'. rewrite app_length in Lk'.
      assert (0 < length nl) by (destruct Bn; cbn; lia). lia. }
    destruct Hin as (i0 & Hi0 & Eii). rewrite Eii, later_start in Ek. rewrite Eii, Ei, app_assoc in Hp.
    destruct (adds_later (x ++ nl) (b ++ r) m a i0 i' Hp) as (a0 & i1 & Ea0 & Ei1 & Hp0). fold kk in Ea0, Ei1.
    destruct (first_grown b r db i0 i1 a0 Vr Edb Hb Hi0 ltac:(lia) Hp0) as (wa & rest & l2 & Ew & Ea1 & El & (c & wa' & Ewa & Hc) & K).
    assert (Ei2 : input = (x ++ nl ++ b ++ wa) ++ rest) by (rewrite Ei, Ew, <- !app_assoc; reflexivity).
    destruct (here_cut (x ++ nl ++ b ++ wa) rest a) as [F1 F2].
    { rewrite Ea0, Ea1. unfold kk. rewrite !app_length. lia. }
    rewrite <- Ei2, <- EA in F1. rewrite <- Ei2, <- EB in F2.
    intros V'. rewrite F1, F2 in *. rewrite <- !app_assoc in V' |- *.
    assert (Vr' : valid_utf8 (b ++ wa ++ more_text t u ++ rest) = true).
    { rewrite valid_utf8_app, valid_utf8_app in V'; [exact V'|exact Vn|exact Va]. }
    destruct (K (x ++ nl) Vr') as (db' & E' & Ec' & El'); [rewrite <- !app_assoc; exact Hq|].
    assert (Ba' : breaks x nl (b ++ wa ++ more_text t u ++ rest)).
    { split; [exact Bn|]. split; [|exact Blf]. intros K1 (q & K2). apply (Bcr K1). rewrite Ew, Ewa. rewrite Ewa in K2. destruct b as [|b0 b]; cbn [app] in *.
      - injection K2 as -> _. eexists; reflexivity.
      - injection K2 as -> _. eexists; reflexivity. }
    assert (Qa' : quotes_apart x (nl ++ b ++ wa ++ more_text t u ++ rest)).
    { replace (nl ++ b ++ wa ++ more_text t u ++ rest) with ((nl ++ b ++ wa) ++ more_text t u ++ rest) by (rewrite <- !app_assoc; reflexivity).
      apply (quotes_extend x (nl ++ b ++ wa) [] (more_text t u) rest); [cbn [app]; rewrite <- !app_assoc, <- Ew; exact Qa|exact Hq]. }
    destruct (C56_joined unq x nl (b ++ wa ++ more_text t u ++ rest) Va Vr' Ca Qa' Ba') as (J1' & _ & _).
    destruct (J1' da db' Ea E') as (d' & Ed' & Ecd' & Eld' & _). exists (d_instructions da), (map (later kk m) l2), d'.
    split; [rewrite El0, El, Eii; reflexivity|]. split; [exact Ed'|]. split; [exact Ecd'|].
    rewrite Eld', El'. cbn [map]. fold kk m. rewrite Ei1. do 2 f_equal.
    rewrite !map_map. apply map_ext. intros j. symmetry. apply move_later. intros z. unfold further. lia.
Qed.

End Doc.
