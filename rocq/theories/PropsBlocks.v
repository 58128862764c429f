(** C59, C60: replacing whole lines of a document, and what later instructions do to the
    stages before them. *)

From Coq Require Import String Permutation.
From Verif Require Import Bytes BytesFacts Result Ast Splicer Image Stage Convert ConvertMove Dockerfile Enquote SpecDoc DocFacts SpecSplice SpecStage SpecParts
  SpecSyntax SpecClear SpecMove SpecJoin ParseEdit Sound SplicerFacts StageFacts PropsDoc PropsStage PropsParse PropsSplice PropsJoin.
Local Open Scope nat_scope.

(** ** C59 *)

Lemma move_instruction_ext g h i : (forall x, g x = h x) -> move_instruction g i = move_instruction h i.
Proof.
  intros H.
  assert (Sp : forall s, move_span g s = move_span h s) by (intros [a b]; unfold move_span; cbn; rewrite !H; reflexivity).
  assert (S : forall s, move_string g s = move_string h s) by (intros [sp c]; unfold move_string; cbn; rewrite Sp; reflexivity).
  assert (SL : forall l, map (move_string g) l = map (move_string h) l) by (intros l; apply map_ext; exact S).
  assert (F : forall l, map (move_flag g) l = map (move_flag h) l).
  { intros l. apply map_ext. intros [sp n v]. unfold move_flag. cbn. rewrite Sp, !S. reflexivity. }
  assert (B : forall b, move_breakable g b = move_breakable h b).
  { intros [sp l]. unfold move_breakable. cbn [br_span br_components]. rewrite Sp. f_equal. apply map_ext.
    intros [s|[sp' c]]; cbn; [rewrite S; reflexivity|]. unfold move_comment. cbn. rewrite Sp. reflexivity. }
  assert (C : forall e, move_command g e = move_command h e).
  { intros [s|[sp l]]; cbn [move_command]; [rewrite B; reflexivity|]. unfold move_array. cbn. rewrite Sp, SL. reflexivity. }
  destruct i as [[]|[]|[]|[]|[]|[]|[]|[]|[]]; cbn; rewrite ?Sp, ?S, ?F, ?SL, ?B, ?C; try reflexivity.
  - unfold move_from. cbn. rewrite Sp, F, S. destruct from_alias; cbn; rewrite ?S; reflexivity.
  - unfold move_arg. cbn. rewrite Sp, S. destruct arg_value; cbn; rewrite ?S; reflexivity.
  - do 2 f_equal. apply map_ext. intros []. unfold move_label. cbn. rewrite Sp, !S. reflexivity.
  - do 2 f_equal. apply map_ext. intros []. unfold move_env. cbn. rewrite Sp, !S, B. reflexivity.
Qed.

Lemma later_later n m k j i : later n m (later k j i) = later (n + k) (m + j) i.
Proof.
  assert (E : move_instruction (fun x => n + x) (move_instruction (fun x => k + x) i) = move_instruction (fun x => n + k + x) i).
  { rewrite move_instruction_comp. apply move_instruction_ext. intros x. lia. }
  destruct i as [f| | | | | | | |]; unfold later; cbn [move_instruction] in *; try exact E.
  assert (K : move_from (fun x => n + x) (move_from (fun x => k + x) f) = move_from (fun x => n + k + x) f) by congruence.
  f_equal. f_equal; [exact (f_equal from_span K)|exact (f_equal from_flags K)|exact (f_equal from_image K)| |exact (f_equal from_alias K)].
  cbn. lia.
Qed.

Lemma count_later n m l : count_from (map (later n m) l) = count_from l.
Proof.
  unfold count_from. induction l as [|i l IH]; [reflexivity|]. cbn [map filter].
  assert (E : is_from_b (later n m i) = is_from_b i) by (destruct i; reflexivity). rewrite E. destruct (is_from_b i); cbn [length]; congruence.
Qed.

(** Of a document, cut at two line breaks, the part in between is replaced by another
    text: the instructions before are untouched, the new ones are those that the new
    text has on its own, and those behind only move.  An error of the new text is the
    error of the new document. *)
Theorem C59_replace_lines unq a n1 w w' n2 b d :
  valid_utf8 a = true -> valid_utf8 w = true -> valid_utf8 w' = true -> valid_utf8 b = true ->
  complete a -> complete w -> complete w' ->
  breaks a n1 (w ++ n2 ++ b) -> breaks w n2 b -> breaks a n1 (w' ++ n2 ++ b) -> breaks w' n2 b ->
  quotes_apart a (n1 ++ w ++ n2 ++ b) -> quotes_apart w (n2 ++ b) ->
  quotes_apart a (n1 ++ w' ++ n2 ++ b) -> quotes_apart w' (n2 ++ b) ->
  parse unq (a ++ n1 ++ w ++ n2 ++ b) = Ok d ->
  exists before old behind, (exists dw, parse unq w = Ok dw /\ d_instructions dw = old) /\
    d_instructions d = before ++ map (later (length (a ++ n1)) (count_from before)) old ++
      map (later (length (a ++ n1 ++ w ++ n2)) (count_from (before ++ old))) behind /\
    (forall dw', parse unq w' = Ok dw' -> exists d', parse unq (a ++ n1 ++ w' ++ n2 ++ b) = Ok d' /\
      d_content d' = a ++ n1 ++ w' ++ n2 ++ b /\
      d_instructions d' = before ++ map (later (length (a ++ n1)) (count_from before)) (d_instructions dw') ++
        map (later (length (a ++ n1 ++ w' ++ n2)) (count_from (before ++ d_instructions dw'))) behind) /\
    (forall e, parse unq w' = Err e -> parse unq (a ++ n1 ++ w' ++ n2 ++ b) = Err e).
Proof.
  intros Va Vw Vw' Vb Ca Cw Cw' Ba Bw Ba' Bw' Qa Qw Qa' Qw' E.
  assert (Vn : valid_utf8 n2 = true) by (destruct Bw as [Hn _]; destruct Hn; reflexivity).
  assert (V1 : valid_utf8 (w ++ n2 ++ b) = true) by (rewrite !valid_utf8_app by assumption; exact Vb).
  assert (V2 : valid_utf8 (w' ++ n2 ++ b) = true) by (rewrite !valid_utf8_app by assumption; exact Vb).
  destruct (C56_joined unq a n1 (w ++ n2 ++ b) Va V1 Ca Qa Ba) as (F1 & B1 & _).
  destruct (C56_joined unq w n2 b Vw Vb Cw Qw Bw) as (F2 & B2 & _).
  destruct (C56_joined unq a n1 (w' ++ n2 ++ b) Va V2 Ca Qa' Ba') as (F3 & B3 & _).
  destruct (C56_joined unq w' n2 b Vw' Vb Cw' Qw' Bw') as (F4 & B4 & _).
  destruct (B1 d E) as (da & d1 & Ea & E1). destruct (B2 d1 E1) as (dw & db & Ew & Eb).
  destruct (F2 dw db Ew Eb) as (d1' & E1' & _ & L1 & _). rewrite E1 in E1'. injection E1' as <-.
  destruct (F1 da d1 Ea E1) as (d0 & E0 & _ & L0 & _). rewrite E in E0. injection E0 as <-.
  assert (Len : forall x y, length (a ++ n1) + length (x ++ y) = length (a ++ n1 ++ x ++ y)) by (intros x y; rewrite !app_length; lia).
  exists (d_instructions da), (d_instructions dw), (d_instructions db).
  split; [exists dw; auto|]. split; [|split].
  - rewrite L0, L1, map_app, map_map, (map_ext _ _ (later_later _ _ _ _)), Len, count_from_app. reflexivity.
  - intros dw' Ew'. destruct (F4 dw' db Ew' Eb) as (d2 & E2 & _ & L2 & _). destruct (F3 da d2 Ea E2) as (d3 & E3 & C3 & L3 & _).
    exists d3. split; [exact E3|]. split; [exact C3|].
    rewrite L3, L2, map_app, map_map, (map_ext _ _ (later_later _ _ _ _)), Len, count_from_app. reflexivity.
  - intros e Ee. destruct (C56_errors unq w' n2 b Vw' Vb Cw' Qw' Bw') as (_ & X & _).
    destruct (C56_errors unq a n1 (w' ++ n2 ++ b) Va V2 Ca Qa' Ba') as (_ & _ & Y).
    apply (Y da e Ea). apply X; [exact Ee|congruence].
Qed.

(** With the splicer: the lines from the start of one instruction to the end of another
    (or of the same one) *)
Theorem C59_spliced unq input d i j pre post w' : valid_utf8 input = true -> parse unq input = Ok d ->
  In i (d_instructions d) -> In j (d_instructions d) -> s_start (instruction_span i) < s_end (instruction_span j) ->
  pre = firstn (s_start (instruction_span i)) input -> post = skipn (s_end (instruction_span j)) input ->
  valid_utf8 w' = true -> fits input [(Span (s_start (instruction_span i)) (s_end (instruction_span j)), w')] ->
  exists st, splice (splicer_from d) (Span (s_start (instruction_span i)) (s_end (instruction_span j))) w' = Ok st /\
    sp_content st = pre ++ w' ++ post.
Proof.
  intros V E Hi Hj Hlt -> -> V' Hf. pose proof (parse_content _ _ _ E) as Ec.
  pose proof (C03_spans_sliceable unq input d i (instruction_part i) V E Hi (or_introl eq_refl)) as S1.
  pose proof (C03_spans_sliceable unq input d j (instruction_part j) V E Hj (or_introl eq_refl)) as S2.
  rewrite Ec in S1, S2. cbn [instruction_part part_span] in S1, S2.
  destruct S1 as (L1 & L2 & B1 & _). destruct S2 as (L3 & L4 & _ & B2).
  set (sp := Span (s_start (instruction_span i)) (s_end (instruction_span j))) in *.
  destruct (splice_disjoint input [(sp, w')] [(sp, w')] V) as (st & Es & Et & Eu).
  - cbn [map fst in_order]. subst sp. cbn [s_start s_end]. repeat split; lia.
  - intros e [<-|[]]. cbn [fst snd]. split; [split; [exact B1|exact B2]|exact V'].
  - exact Hf.
  - apply Permutation_refl.
  - exists st. unfold splice_all in Es. cbn [for_each fst snd] in Es. unfold splicer_from. rewrite Ec.
    split; [unfold splicer_from_str in Es; destruct (splice _ _ _); [exact Es|discriminate Es..]|].
    rewrite Et. cbn [replaced]. unfold slice. cbn [skipn]. rewrite Nat.sub_0_r. reflexivity.
Qed.

(** Three lines replaced by two: a stage less, a continuation, an unclosed quote after them *)
Definition before_part : bytes := bs "FROM x AS b" ++ [CR; LF] ++ bs "RUN a \" ++ [LF] ++ bs "b" ++ [LF] ++ bs "LABEL p=q".
Definition old_part : bytes := bs "RUN foo" ++ [LF] ++ bs "FROM b" ++ [LF] ++ bs "COPY u \" ++ [LF] ++ bs "v".
Definition new_part : bytes := bs "CMD t" ++ [LF] ++ bs "ENV k \" ++ [CR; LF] ++ bs "w".
Definition behind_part : bytes := bs "FROM b" ++ [LF] ++ bs "RUN ""c".

Ltac last_line k x := apply (complete_line (firstn k x) (skipn k x));
  [(left; reflexivity) || (right; exists (firstn (k - 1) x), LF; split; reflexivity)
  |repeat constructor
  |eexists; split; [left; reflexivity|reflexivity]
  |cbn; intros H; repeat (destruct H as [H|H]; [discriminate|]); exact H
  |apply not_backslash; vm_compute; reflexivity].
Ltac plain_break := split; [constructor|]; split; [discriminate|];
  intros _ (a0 & E0); apply (f_equal (fun l => last l 0%N)) in E0; rewrite last_last in E0; discriminate.

Example C59_case :
  complete before_part /\ complete old_part /\ complete new_part /\
  breaks before_part [LF] (old_part ++ [LF] ++ behind_part) /\ breaks old_part [LF] behind_part /\
  breaks before_part [LF] (new_part ++ [LF] ++ behind_part) /\ breaks new_part [LF] behind_part /\
  quotes_apart before_part ([LF] ++ old_part ++ [LF] ++ behind_part) /\ quotes_apart old_part ([LF] ++ behind_part) /\
  quotes_apart before_part ([LF] ++ new_part ++ [LF] ++ behind_part) /\ quotes_apart new_part ([LF] ++ behind_part) /\
  reads (before_part ++ [LF] ++ old_part ++ [LF] ++ behind_part) (fun d => length (d_instructions d) = 8) /\
  reads (before_part ++ [LF] ++ new_part ++ [LF] ++ behind_part) (fun d => length (d_instructions d) = 7).
Proof.
  split; [last_line 23 before_part|]. split; [last_line 24 old_part|]. split; [last_line 15 new_part|].
  do 4 (split; [plain_break|]).
  do 4 (split; [apply no_quote_before; repeat constructor; discriminate|]).
  split; (split; [reflexivity|]; eexists; split; [vm_compute; reflexivity|reflexivity]).
Qed.

(** ** C60 *)

(** [kept] is [ss] with the instructions [more] added to its last stage. *)
Inductive goes_on : list stage -> list instruction -> list stage -> Prop :=
| on_none more : goes_on [] more []
| on_last init s more : goes_on (init ++ [s]) more
    (init ++ [Stage (st_index s) (st_name s) (st_instructions s ++ more) (st_parent s) (st_root s)]).

Lemma exists_last_or {A} (l : list A) : l = [] \/ exists i x, l = i ++ [x].
Proof. destruct (rev l) as [|x r] eqn:E; [left|right; exists (rev r), x]; rewrite <- (rev_involutive l), E; reflexivity. Qed.

Lemma add_plain pre : forall ss n, Forall (fun i => ~ is_from i) pre ->
  exists kept, for_each stages_step pre (ss, n) = Ok (kept, n) /\ goes_on ss pre kept.
Proof.
  intros ss n Hp. destruct (exists_last_or ss) as [->|(init & s & ->)].
  - exists []. split; [|constructor]. induction Hp as [|x l Hx Hl IH]; [reflexivity|]. cbn [for_each].
    destruct x; cbn [stages_step bind]; try exact IH. exfalso. apply Hx. eexists. reflexivity.
  - eexists. split; [|constructor]. revert s. induction Hp as [|x l Hx Hl IH]; intros s.
    + cbn [for_each]. rewrite app_nil_r. destruct s; reflexivity.
    + cbn [for_each].
      assert (Es : stages_step (init ++ [s], n) x =
        Ok (init ++ [Stage (st_index s) (st_name s) (st_instructions s ++ [x]) (st_parent s) (st_root s)], n)).
      { destruct x; cbn [stages_step]; [exfalso; apply Hx; eexists; reflexivity|..];
          rewrite <- push_last_snoc; destruct init; reflexivity. }
      rewrite Es. cbn [bind]. rewrite IH. cbn [st_index st_name st_instructions st_parent st_root]. rewrite <- app_assoc. reflexivity.
Qed.

Lemma from_step ss n f r : stages_step (ss, n) (IFrom f) = Ok r -> exists s, r = (ss ++ [s], S n).
Proof.
  cbn [stages_step]. set (p := if beqb _ _ then _ else _). intros E.
  destruct p; cbn [bind] in E; [|destruct (nth_error ss index); cbn [bind] in E; [|discriminate]|]; injection E as <-; eauto.
Qed.

Lemma add_rest l : forall ss t n x n', t <> [] -> for_each stages_step l (ss ++ t, n) = Ok (x, n') ->
  exists t', x = ss ++ t' /\ length t' = length t + count_from l.
Proof.
  induction l as [|i l IH]; intros ss t n x n' Ht E; cbn [for_each] in E.
  - injection E as <- <-. exists t. split; [reflexivity|]. cbn. lia.
  - destruct (exists_last_or t) as [->|(t0 & s & ->)]; [congruence|].
    destruct (stages_step (ss ++ t0 ++ [s], n) i) as [[y m]|e| |] eqn:Es; cbn [bind] in E; try discriminate.
    assert (K : exists t1, y = ss ++ t1 /\ t1 <> [] /\ length t1 = length (t0 ++ [s]) + count_from [i]).
    { destruct i as [f| | | | | | | |]; cbn [stages_step] in Es.
      1: { apply from_step in Es. destruct Es as (s1 & K). injection K as -> ->.
        rewrite <- app_assoc. eexists. split; [reflexivity|]. split; [destruct t0; discriminate|]. rewrite !app_length. reflexivity. }
      all: rewrite app_assoc, push_last_snoc in Es; destruct ((ss ++ t0) ++ [s]) eqn:En; [destruct (ss ++ t0); discriminate|];
        injection Es as <- <-; rewrite <- app_assoc; eexists; (split; [reflexivity|]); (split; [destruct t0; discriminate|]); rewrite !app_length; cbn; lia. }
    destruct K as (t1 & -> & Ht1 & L1). destruct (IH ss t1 m x n' Ht1 E) as (t' & -> & L'). exists t'. split; [reflexivity|].
    rewrite L', L1. change (i :: l) with ([i] ++ l). rewrite count_from_app. lia.
Qed.

(** Instructions put behind a document: its stages stay as they are, except that the last
    one gets what comes before the next FROM; each further FROM adds a stage. *)
Theorem C60_earlier_stages d d' pre post ss : stages_new d = Ok ss -> d_instructions d' = d_instructions d ++ pre ++ post ->
  Forall (fun i => ~ is_from i) pre -> (post = [] \/ exists f r, post = IFrom f :: r) ->
  exists kept added, stages_new d' = Ok (kept ++ added) /\ goes_on ss pre kept /\ length added = count_from post.
Proof.
  intros E Ei Hp Hq. destruct (stages_new_spec d') as (ss' & E' & _). rewrite E'. unfold stages_new in E, E'.
  rewrite Ei, for_each_app in E'. destruct (for_each stages_step (d_instructions d) ([], 0)) as [[y n]|e| |]; cbn [bind fst] in *; try discriminate.
  injection E as ->. rewrite for_each_app in E'. destruct (add_plain pre ss n Hp) as (kept & Ek & Hk). rewrite Ek in E'. cbn [bind] in E'.
  exists kept. destruct Hq as [->|(f & r & ->)].
  - injection E' as <-. exists []. rewrite app_nil_r. auto.
  - cbn [for_each] in E'.
    destruct (stages_step (kept, n) (IFrom f)) as [st|e| |] eqn:Ef; cbn [bind] in E'; try discriminate.
    apply from_step in Ef. destruct Ef as (s1 & ->). destruct (for_each stages_step r _) as [[z m]|e| |] eqn:Er; cbn [bind fst] in E'; try discriminate. injection E' as ->.
    apply add_rest in Er; [|discriminate]. destruct Er as (t' & -> & L). exists t'. split; [reflexivity|]. split; [exact Hk|].
    rewrite L. reflexivity.
Qed.

(** So the parent, the root, the index and the name of an earlier stage stay, and a name
    that was found is found in the same place. *)
Theorem C60_same_heads d d' more ss ss' : stages_new d = Ok ss -> stages_new d' = Ok ss' ->
  d_instructions d' = d_instructions d ++ more ->
  (forall i s, nth_error ss i = Some s -> exists s', nth_error ss' i = Some s' /\ st_index s' = st_index s /\
    st_name s' = st_name s /\ st_parent s' = st_parent s /\ st_root s' = st_root s /\
    (exists r, st_instructions s' = st_instructions s ++ r) /\ (S i < length ss -> s' = s)) /\
  (forall name s, get_by_name ss name = Some s -> exists s', get_by_name ss' name = Some s' /\ st_index s' = st_index s).
Proof.
  intros E E' Ei.
  assert (Sp : exists pre post, more = pre ++ post /\ Forall (fun i => ~ is_from i) pre /\ (post = [] \/ exists f r, post = IFrom f :: r)).
  { clear. induction more as [|i l IH]; [exists [], []; auto|]. destruct i as [f| | | | | | | |];
      [exists [], (IFrom f :: l); split; [reflexivity|]; split; [constructor|right; eauto]|..];
      destruct IH as (pre & post & -> & H1 & H2);
      (eexists (_ :: pre), post; split; [reflexivity|]; split; [constructor; [intros (? & ?); discriminate|exact H1]|exact H2]). }
  destruct Sp as (pre & post & -> & Hp & Hq).
  destruct (C60_earlier_stages d d' pre post ss E Ei Hp Hq) as (kept & added & Ek & Hk & _). rewrite E' in Ek. injection Ek as ->.
  destruct Hk as [more|init s more].
  - split; [intros [|i] s H; discriminate|intros name s H; discriminate].
  - split.
    + intros i s0 Hi. destruct (Nat.ltb_spec i (length init)) as [L|L].
      * exists s0. rewrite <- app_assoc, nth_error_app1 by exact L. rewrite nth_error_app1 in Hi by exact L.
        repeat split; auto. exists []. rewrite app_nil_r. reflexivity.
      * rewrite nth_error_app2 in Hi by exact L. rewrite <- app_assoc, nth_error_app2 by exact L.
        destruct (i - length init) as [|[|k]] eqn:Ed; cbn [nth_error app] in *; try discriminate.
        injection Hi as <-. eexists. split; [reflexivity|]. cbn [st_index st_name st_parent st_root st_instructions].
        repeat split; [eauto|]. rewrite app_length. cbn [length]. lia.
    + intros name s0 Hn. unfold get_by_name in *. rewrite <- app_assoc.
      assert (Fa : forall (P : stage -> bool) l1 l2, find P (l1 ++ l2) = match find P l1 with Some x => Some x | None => find P l2 end).
      { intros P l1 l2. induction l1 as [|x l1 IH]; [reflexivity|]. cbn [find app]. destruct (P x); [reflexivity|exact IH]. }
      rewrite Fa in *. destruct (find (name_is name) init) as [s1|]; [injection Hn as <-; eauto|].
      cbn [find app] in *. unfold name_is at 1 in Hn. unfold name_is at 1. cbn [st_name].
      destruct (match st_name s with Some n0 => _ | None => _ end); [|discriminate]. injection Hn as <-. eauto.
Qed.

(** The same for two documents joined at a line break *)
Theorem C60_joined unq a n b da db ss : valid_utf8 a = true -> valid_utf8 b = true -> complete a -> quotes_apart a (n ++ b) -> breaks a n b ->
  parse unq a = Ok da -> parse unq b = Ok db -> stages_new da = Ok ss ->
  exists d ss', parse unq (a ++ n ++ b) = Ok d /\ stages_new d = Ok ss' /\ length ss' = length ss + count_from (d_instructions db) /\
    forall i s, nth_error ss i = Some s -> exists s', nth_error ss' i = Some s' /\ st_index s' = st_index s /\
      st_name s' = st_name s /\ st_parent s' = st_parent s /\ st_root s' = st_root s /\
      (exists r, st_instructions s' = st_instructions s ++ r) /\ (S i < length ss -> s' = s).
Proof.
  intros Va Vb C Q B Ea Eb Es. destruct (C56_joined unq a n b Va Vb C Q B) as (F & _ & _).
  destruct (F da db Ea Eb) as (d & E & _ & L & _). exists d. destruct (stages_new_spec d) as (ss' & E' & _). exists ss'.
  split; [exact E|]. split; [exact E'|]. split.
  - assert (N : forall d0 s0, stages_new d0 = Ok s0 -> length s0 = count_from (d_instructions d0)).
    { intros d0 s0 E0. destruct (C25_stages_partition d0 s0 E0) as (pre & -> & Hp & Hs).
      rewrite count_from_app, (count_from_none pre Hp), (count_from_stages s0 Hs). reflexivity. }
    rewrite (N d ss' E'), (N da ss Es), L, count_from_app, count_later. reflexivity.
  - apply (C60_same_heads da d _ ss ss' Es E' L).
Qed.

(** An alias that the second document gives once more: the first one still counts. *)
Example C60_case : exists d ss,
  parse enquote_unquote (before_part ++ [LF] ++ old_part ++ [LF] ++ bs "FROM z AS B") = Ok d /\ stages_new d = Ok ss /\
  map st_parent ss = [PImage (image_parse (bs "x")); PStage 0; PImage (image_parse (bs "z"))] /\
  option_map st_index (get_by_name ss (bs "B")) = Some 0.
Proof. eexists. eexists. split; [vm_compute; reflexivity|]. split; [vm_compute; reflexivity|]. split; vm_compute; reflexivity. Qed.

Print Assumptions C59_replace_lines.
Print Assumptions C59_spliced.
Print Assumptions C60_earlier_stages.
Print Assumptions C60_same_heads.
Print Assumptions C60_joined.
