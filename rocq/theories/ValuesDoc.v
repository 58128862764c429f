(** A value replaced in a document: the lines before it, its own line, the lines after it. *)

From Coq Require Import String.
From Verif Require Import Bytes BytesFacts Result Ast Convert Dockerfile SpecImage SpecSyntax SpecClear SpecExact SpecMove SpecSplice SpecJoin SpecValues
  Forward Forward3 Sound Exact Exact3 Exact7 Exact8 SpecDoc SpecParts DocFacts ParseEdit PropsParse PropsDoc PropsJoin PropsBlocks ReadsMove ValuesFacts.
Local Open Scope nat_scope.

Section Doc.
Variable unq : bytes -> option bytes.

Lemma reads_span p w s i : instruction_reads unq p w s i -> instruction_span i = at_ p w.
Proof.
  intros H. destruct i as [x|x|x|x|x|x|x|x|x]; cbn [instruction_reads instruction_span] in *.
  - destruct H as (kw & fl & k & g & img & al & H). tauto.
  - destruct H as (kw & k & g & name & rest & H). tauto.
  - destruct H as (kw & r & H). tauto.
  - destruct H as (kw & g & cmd & H). tauto.
  - destruct H as (kw & g & cmd & H). tauto.
  - destruct H as (kw & g & cmd & H). tauto.
  - destruct H as (kw & fl & paths & H). tauto.
  - destruct H as (kw & r & H). tauto.
  - destruct H as (name & args & H). tauto.
Qed.

Lemma line_starts p w s l i : line_reads unq p w s l -> In i l -> p <= s_start (instruction_span i).
Proof.
  intros H Hi. destruct H as [p b s Hb Hs|p b t s Hb Ht Hs|p b w b2 s j Hb Hj Hb2 Hs]; [destruct Hi|destruct Hi|].
  destruct Hi as [<-|[]]. rewrite (reads_span _ _ _ _ Hj). cbn [at_ s_start]. lia.
Qed.
Lemma document_starts p w l i : document_reads unq p w l -> In i l -> p <= s_start (instruction_span i).
Proof.
  induction 1 as [p w l H|p w n w2 l l2 H Hn Hcr H2 IH]; intros Hi; [eapply line_starts; eassumption|].
  apply in_app_or in Hi. destruct Hi as [Hi|Hi]; [eapply line_starts; eassumption|]. specialize (IH Hi). lia.
Qed.

(** Blanks [b] are all there is before place [length b]. *)
Lemma blank_prefix (b r x : bytes) c y : b ++ r = x ++ c :: y -> blanks b -> is_blank c = false -> length b <= length x.
Proof.
  intros E Hb Hc. destruct (Nat.le_gt_cases (length b) (length x)) as [L|L]; [exact L|exfalso].
  pose proof (f_equal (fun z => nth_error z (length x)) E) as K. cbn beta in K. rewrite nth_error_app1 in K by exact L.
  rewrite nth_error_app2, Nat.sub_diag in K by lia. cbn [nth_error] in K. apply nth_error_In in K.
  rewrite (proj1 (Forall_forall _ _) Hb _ K) in Hc. discriminate.
Qed.

Lemma newline_head n : newline n -> exists c y, n = c :: y /\ is_blank c = false.
Proof. intros H. destruct H; do 2 eexists; split; reflexivity. Qed.

Lemma line_cases p w s l : line_reads unq p w s l -> l = [] \/
  exists b w1 b2 i, w = b ++ w1 ++ b2 /\ l = [i] /\ blanks b /\ instruction_reads unq (p + length b) w1 (b2 ++ s) i /\ blanks b2 /\ ends_here s.
Proof.
  intros H. destruct H as [p b s Hb Hs|p b t s Hb Ht Hs|p b w b2 s j Hb Hj Hb2 Hs]; [left; reflexivity|left; reflexivity|].
  right. exists b, w, b2, j. auto 8.
Qed.

(** The first instruction, on the first line *)
Lemma document_first l i b r : document_reads unq 0 (b ++ r) l -> blanks b -> In i l -> s_start (instruction_span i) = length b ->
  exists w tail l2, r = w ++ tail /\ l = i :: l2 /\ instruction_reads unq (length b) w tail i /\ closed_end tail /\
    (forall f w' i', instruction_reads unq (length b) w' tail i' -> carries f (length b + length w) (length b + length w') (length tail) ->
      document_reads unq 0 (b ++ w' ++ tail) (i' :: map (move_instruction f) l2)).
Proof.
  intros H Hb Hi Es. remember (b ++ r) as u eqn:Eu. remember 0 as p eqn:Ep.
  assert (Hsame : forall b' w x y, b ++ r = b' ++ w ++ x -> blanks b' -> length b = length b' -> instruction_reads unq (0 + length b') w y i ->
    b' = b /\ r = w ++ x /\ instruction_reads unq (length b) w y i).
  { intros b' w x y E Hb' L R. assert (Eb : b' = b).
    { pose proof (f_equal (firstn (length b)) E) as K. rewrite firstn_app, firstn_all, Nat.sub_diag in K. cbn [firstn] in K.
      rewrite L, firstn_app, firstn_all, Nat.sub_diag in K. cbn [firstn] in K. rewrite !app_nil_r in K. congruence. }
    subst b'. apply app_inv_head in E. auto. }
  assert (Hfirst : forall b' w x y j, b ++ r = b' ++ w ++ x -> instruction_reads unq (0 + length b') w y j -> blanks b' -> length b <= length b').
  { intros b' w x y j E R Hb'. pose proof (reads_head_letter unq _ _ _ _ [] R) as K. rewrite app_nil_r in K. destruct w as [|c w]; [destruct K|].
    eapply blank_prefix; [exact E|exact Hb|]. unfold is_blank, is_alpha in *. destruct (c =? 32)%N eqn:E1; [apply N.eqb_eq in E1; subst c; discriminate|].
    destruct (c =? 9)%N eqn:E2; [apply N.eqb_eq in E2; subst c; discriminate|]. reflexivity. }
  destruct H as [p w l H|p w n w2 l l2 H Hn Hcr H2]; subst p.
  - destruct (line_cases _ _ _ _ H) as [->|(b' & w1 & b2 & j & -> & -> & Hb' & Hj & Hb2 & Hs)]; [destruct Hi|]. destruct Hi as [->|[]]. rename w1 into w.
    rewrite (reads_span _ _ _ _ Hj) in Es. cbn [at_ s_start Nat.add] in Es. rewrite app_nil_r in Hj.
    symmetry in Eu. destruct (Hsame b' w b2 b2 Eu Hb' (eq_sym Es) Hj) as (-> & -> & R).
    exists w, b2, []. split; [reflexivity|]. split; [reflexivity|]. split; [exact R|]. split; [exists b2, []; rewrite app_nil_r; repeat split; [exact Hb2|left; reflexivity]|].
    intros f w' i' R' _. cbn [map]. apply reads_last. apply reads_instruction; [exact Hb|rewrite app_nil_r; exact R'|exact Hb2|exact Hs].
  - symmetry in Eu. destruct (newline_head n Hn) as (c & y & En & Hc).
    destruct (line_cases _ _ _ _ H) as [->|(b' & w1 & b2 & j & -> & -> & Hb' & Hj & Hb2 & Hs)]; cbn [app] in Hi |- *; [|rename w1 into w].
    + exfalso. pose proof (document_starts _ _ _ _ H2 Hi) as K. rewrite Es in K. rewrite En in Eu, K. cbn [app length] in Eu, K.
      pose proof (blank_prefix _ _ _ _ _ Eu Hb Hc). lia.
    + destruct Hi as [->|Hi].
      * rewrite (reads_span _ _ _ _ Hj) in Es. cbn [at_ s_start Nat.add] in Es. rewrite <- !app_assoc in Eu.
        destruct (Hsame b' w (b2 ++ n ++ w2) (b2 ++ n ++ w2) Eu Hb' (eq_sym Es) Hj) as (-> & -> & R).
        exists w, (b2 ++ n ++ w2), l2. split; [reflexivity|]. split; [reflexivity|]. split; [exact R|].
        split; [exists b2, (n ++ w2); split; [reflexivity|split; [exact Hb2|apply ends_end; exact Hs]]|].
        intros f w' i' R' C. replace (b ++ w' ++ b2 ++ n ++ w2) with ((b ++ w' ++ b2) ++ n ++ w2) by (rewrite <- !app_assoc; reflexivity).
        change (i' :: map (move_instruction f) l2) with ([i'] ++ map (move_instruction f) l2).
        apply reads_more; [apply reads_instruction; [exact Hb|exact R'|exact Hb2|exact Hs]|exact Hn|exact Hcr|].
        eapply document_carried; [exact H2|]. intros a La. cbn [Nat.add] in *. specialize (C (length b2 + length n + a)). rewrite !app_length in *.
        replace (length b + (length w + length b2) + length n + a) with (length b + length w + (length b2 + length n + a)) by lia. rewrite C by lia. lia.
      * exfalso. pose proof (document_starts _ _ _ _ H2 Hi) as K. rewrite Es in K. rewrite <- !app_assoc in Eu.
        pose proof (Hfirst b' w (b2 ++ n ++ w2) _ _ Eu Hj Hb') as L. rewrite !app_length, En in K. cbn [length] in K. lia.
Qed.

(** ** On the first line *)

Lemma with_value_index sp v i : index_of (with_value sp v i) = index_of i.
Proof. destruct i; reflexivity. Qed.

Lemma value_first b r i l sp t v : reading unq (b ++ r) l -> blanks b -> In i l -> s_start (instruction_span i) = length b -> value_place i sp ->
  exists wa X rest l2, r = wa ++ X ++ rest /\ X <> [] /\ sp = at_ (length b + length wa) X /\ l = i :: l2 /\ s_end (instruction_span i) <= length (b ++ r) /\ 
  (exists c wa', wa = c :: wa' /\ is_alpha c = true) /\
  forall P, value_text unq (P ++ b ++ wa) i t v -> quotes_apart (P ++ b ++ wa) (t ++ rest) ->
    let g := replacement (s_start sp) (s_end sp) (length t) in
    reading unq (b ++ wa ++ t ++ rest) (move_instruction g (with_value sp v i) :: map (move_instruction g) l2).
Proof.
  intros R Hb Hi Es Hp. destruct (document_first l i b r R Hb Hi Es) as (w & tail & l2 & -> & -> & Ri & Ht & K).
  set (g := replacement (s_start sp) (s_end sp) (length t)).
  destruct (instruction_put unq g sp t v _ _ _ _ Ri Ht Hp) as (wa & X & wb & -> & HX & Hwa & Esp & Put).
  pose proof (reads_head_letter unq _ _ _ _ [] Ri) as Hh. 
  exists wa, X, (wb ++ tail), l2. split; [rewrite <- !app_assoc; reflexivity|]. split; [exact HX|]. split; [exact Esp|]. split; [reflexivity|].
  split; [rewrite (reads_span _ _ _ _ Ri); cbn [at_ s_end]; rewrite !app_length; lia|].
  split; [destruct wa as [|c wa']; [congruence|]; cbn [app] in Hh; eauto|].
  intros P Hv Hq. cbv zeta. assert (HL : 0 < length X) by (destruct X; [congruence|cbn; lia]).
  assert (C1 : carries g (length b) (length b) (length wa)).
  { intros a La. unfold g, replacement. rewrite Esp. cbn [at_ s_start s_end]. rewrite (proj2 (Nat.leb_le _ _)) by lia. reflexivity. }
  assert (C2 : forall m, carries g (length b + length wa + length X) (length b + length wa + length t) m).
  { intros m a La. unfold g, replacement. rewrite Esp. cbn [at_ s_start s_end]. rewrite (proj2 (Nat.leb_gt _ _)) by lia. lia. }
  replace (b ++ wa ++ t ++ wb ++ tail) with (b ++ (wa ++ t ++ wb) ++ tail) by (rewrite <- !app_assoc; reflexivity).
  apply K.
  - apply (Put (P ++ b)); [rewrite <- app_assoc; exact Hv| |split; [exact C1|apply C2]].
    apply (quotes_suffix (P ++ b)). rewrite <- app_assoc. exact Hq.
  - intros a La. rewrite !app_length. replace (length b + (length wa + (length X + length wb)) + a) with (length b + length wa + length X + (length wb + a)) by lia.
    rewrite (C2 (length wb + a)) by lia. lia.
Qed.

(** ** After other lines *)

Lemma with_later sp v k m i : with_value (move_span (fun x => k + x) sp) v (later k m i) = later k m (with_value sp v i).
Proof.
  assert (St : forall s, put_string (move_span (fun x => k + x) sp) v (move_string (fun x => k + x) s) = move_string (fun x => k + x) (put_string sp v s)).
  { intros [[a b] c]. destruct sp as [a2 b2]. unfold put_string, move_string, move_span. cbn [ss_span ss_content s_start s_end].
    destruct (span_eq_dec (Span a b) (Span a2 b2)) as [E|E]; destruct (span_eq_dec (Span (k + a) (k + b)) (Span (k + a2) (k + b2))) as [E'|E']; try reflexivity.
    - exfalso. apply E'. injection E as -> ->. reflexivity.
    - exfalso. apply E. injection E' as H1 H2. f_equal; lia. }
  assert (Sb : forall s, put_value (move_span (fun x => k + x) sp) v (move_breakable (fun x => k + x) s) = move_breakable (fun x => k + x) (put_value sp v s)).
  { intros [[a b] c]. destruct sp as [a2 b2]. unfold put_value, move_breakable, move_span. cbn [br_span br_components s_start s_end].
    destruct (span_eq_dec (Span a b) (Span a2 b2)) as [E|E]; destruct (span_eq_dec (Span (k + a) (k + b)) (Span (k + a2) (k + b2))) as [E'|E']; try reflexivity.
    - exfalso. apply E'. injection E as -> ->. reflexivity.
    - exfalso. apply E. injection E' as H1 H2. f_equal; lia. }
  assert (Sc : forall e, put_command (move_span (fun x => k + x) sp) v (move_command (fun x => k + x) e) = move_command (fun x => k + x) (put_command sp v e)).
  { intros [e|[a l]]; [reflexivity|]. cbn [move_command put_command]. unfold move_array. cbn [sa_span sa_elements]. rewrite !map_map. do 2 f_equal. apply map_ext. exact St. }
  destruct i as [x|x|x|x|x|x|x|x|x]; try reflexivity; unfold later; cbn [move_instruction with_value]; f_equal; unfold move_arg;
    cbn [run_span run_expr entrypoint_span entrypoint_expr cmd_span cmd_expr label_span label_labels env_span env_vars arg_span arg_name arg_value]; f_equal.
  - destruct (arg_value x); cbn [option_map]; [rewrite St|]; reflexivity.
  - rewrite !map_map. apply map_ext. intros l. unfold put_label, move_label. cbn [lb_span lb_name lb_value]. rewrite St. reflexivity.
  - apply Sc.
  - apply Sc.
  - apply Sc.
  - rewrite !map_map. apply map_ext. intros l. unfold put_env, move_env. cbn [ev_span ev_key ev_value]. rewrite Sb. reflexivity.
Qed.

Definition reindex (m : nat) (i : instruction) : instruction :=
  match i with
  | IFrom x => IFrom (FromInstruction (from_span x) (from_flags x) (from_image x) (from_image_parsed x) (m + from_index x) (from_alias x))
  | j => j
  end.
Lemma move_later g g0 k m i : (forall x, g (k + x) = k + g0 x) -> move_instruction g (later k m i) = later k m (move_instruction g0 i).
Proof.
  intros H. assert (E : move_instruction g (move_instruction (fun x => k + x) i) = move_instruction (fun x => k + x) (move_instruction g0 i)).
  { rewrite !move_instruction_comp. apply move_instruction_ext. exact H. }
  assert (L : forall j, later k m j = reindex m (move_instruction (fun x => k + x) j)) by (intros j; destruct j; reflexivity).
  rewrite !L, <- E. destruct (move_instruction (fun x => k + x) i); reflexivity.
Qed.

Lemma later_start k m i : s_start (instruction_span (later k m i)) = k + s_start (instruction_span i).
Proof. destruct i; reflexivity. Qed.

Lemma place_later k m i sp : value_place (later k m i) sp -> exists sp0, sp = move_span (fun x => k + x) sp0 /\ value_place i sp0.
Proof.
  assert (Sc : forall e, element_place (move_command (fun x => k + x) e) sp -> exists sp0, sp = move_span (fun x => k + x) sp0 /\ element_place e sp0).
  { intros [e|a]; [intros []|]. cbn [move_command element_place]. unfold move_array. cbn [sa_elements]. intros (s & Hs & <-). apply in_map_iff in Hs.
    destruct Hs as (s0 & <- & Hs). exists (ss_span s0). split; [reflexivity|eauto]. }
  destruct i as [x|x|x|x|x|x|x|x|x]; unfold later; cbn [move_instruction value_place]; intros H; try contradiction; try (apply Sc; exact H); destruct H as (s & Hs & <-).
  - unfold move_arg in Hs. cbn [arg_value] in Hs. destruct (arg_value x) as [s0|]; [|discriminate]. injection Hs as <-. exists (ss_span s0). split; [reflexivity|eauto].
  - cbn [label_labels] in Hs. apply in_map_iff in Hs. destruct Hs as (l0 & <- & Hl). exists (ss_span (lb_value l0)). split; [reflexivity|eauto].
  - cbn [env_vars] in Hs. apply in_map_iff in Hs. destruct Hs as (l0 & <- & Hl). exists (br_span (ev_value l0)). split; [reflexivity|eauto].
Qed.

Lemma text_later before k m i t v : value_text unq before (later k m i) t v <-> value_text unq before i t v.
Proof. destruct i; reflexivity. Qed.

Lemma put_numbered g sp v i l2 : value_place i sp -> numbered 0 (i :: l2) = i :: l2 ->
  numbered 0 (move_instruction g (with_value sp v i) :: map (move_instruction g) l2) = move_instruction g (with_value sp v i) :: map (move_instruction g) l2.
Proof.
  intros Hp H. assert (H2 : numbered 0 l2 = l2) by (destruct i; try (destruct Hp; fail); cbn [numbered] in H; congruence).
  assert (E : numbered 0 (map (move_instruction g) l2) = map (move_instruction g) l2) by (apply numbered_fixed; [intros j; destruct j; reflexivity|exact H2]).
  destruct i; try (destruct Hp; fail); cbn [with_value move_instruction numbered]; rewrite E; reflexivity.
Qed.

Lemma quotes_extend a u X t B B' : quotes_apart a (u ++ X ++ B) -> quotes_apart (a ++ u) (t ++ B') -> quotes_apart a (u ++ t ++ B').
Proof.
  intros H1 H2 x o q v body rest E Ho Hq Hb Ev. 
  assert (L : length body < length (v ++ u)).
  { apply (H2 x o q (v ++ u) body rest); [rewrite E, <- app_assoc; reflexivity|exact Ho|exact Hq|exact Hb|rewrite <- app_assoc; exact Ev]. }
  assert (Ec : exists rest', v ++ u = body ++ q :: rest').
  { exists (skipn (S (length body)) (v ++ u)). rewrite <- (firstn_skipn (S (length body)) (v ++ u)) at 1.
    pose proof (f_equal (firstn (S (length body))) Ev) as K. rewrite app_assoc, firstn_app in K.
    replace (S (length body) - length (v ++ u)) with 0 in K by lia. rewrite firstn_O, app_nil_r in K. rewrite K.
    replace (S (length body)) with (length (body ++ [q])) by (rewrite app_length; cbn; lia).
    replace (body ++ q :: rest) with ((body ++ [q]) ++ rest) by (rewrite <- app_assoc; reflexivity).
    rewrite firstn_app, firstn_all, Nat.sub_diag, firstn_O, app_nil_r, <- app_assoc. reflexivity. }
  destruct Ec as (rest' & Ec). apply (H1 x o q v body (rest' ++ X ++ B) E Ho Hq Hb). rewrite app_assoc, Ec, <- app_assoc. reflexivity.
Qed.

(** The first line of [b ++ r], as a document *)
Lemma first_replaced b r d i sp t v : valid_utf8 (b ++ r) = true -> parse unq (b ++ r) = Ok d -> blanks b -> In i (d_instructions d) ->
  s_start (instruction_span i) = length b -> value_place i sp ->
  exists wa X rest l2, r = wa ++ X ++ rest /\ X <> [] /\ sp = at_ (length b + length wa) X /\ d_instructions d = i :: l2 /\
    (exists c wa', wa = c :: wa' /\ is_alpha c = true) /\
    forall P, valid_utf8 (b ++ wa ++ t ++ rest) = true -> value_text unq (P ++ b ++ wa) i t v -> quotes_apart (P ++ b ++ wa) (t ++ rest) ->
    let g := replacement (s_start sp) (s_end sp) (length t) in
    exists d', parse unq (b ++ wa ++ t ++ rest) = Ok d' /\ d_content d' = b ++ wa ++ t ++ rest /\
      d_instructions d' = move_instruction g (with_value sp v i) :: map (move_instruction g) l2.
Proof.
  intros V E Hb Hi Es Hp. pose proof (accepted_exact unq _ _ V E) as R.
  destruct (reading_parses unq _ _ V R) as (d2 & E2 & _ & En). rewrite E in E2. injection E2 as <-.
  destruct (value_first b r i _ sp t v R Hb Hi Es Hp) as (wa & X & rest & l2 & -> & HX & Esp & El & _ & Hc & K).
  exists wa, X, rest, l2. do 5 (split; [first [reflexivity|assumption]|]). intros P V' Hv Hq. cbv zeta in *.
  destruct (reading_parses unq _ _ V' (K P Hv Hq)) as (d' & E' & Ec' & El'). exists d'. split; [exact E'|]. split; [exact Ec'|].
  rewrite El'. apply put_numbered; [exact Hp|]. rewrite <- El. symmetry. exact En.
Qed.

Lemma cut_input (input : bytes) k a u : firstn k input = a -> skipn k input = u -> input = a ++ u.
Proof. intros <- <-. symmetry. apply firstn_skipn. Qed.

Lemma at_cut (A X B : bytes) sp : sp = at_ (length A) X -> firstn (s_start sp) (A ++ X ++ B) = A /\ skipn (s_end sp) (A ++ X ++ B) = B.
Proof.
  intros ->. cbn [at_ s_start s_end]. split.
  - rewrite firstn_app, firstn_all, Nat.sub_diag, firstn_O. apply app_nil_r.
  - rewrite app_assoc, <- app_length, skipn_app, skipn_all, Nat.sub_diag. reflexivity.
Qed.

Lemma kept input d g : valid_utf8 input = true -> parse unq input = Ok d -> (forall x, x <= length input -> g x = x) ->
  map (move_instruction g) (d_instructions d) = d_instructions d.
Proof.
  intros V E Hg. pose proof (accepted_exact unq _ _ V E) as R. destruct (reading_parses unq _ _ V R) as (d2 & E2 & _ & En). rewrite E in E2. injection E2 as <-.
  assert (R' : reading unq input (map (move_instruction g) (d_instructions d))) by (apply (document_carried unq g 0); [exact R|intros a La; apply Hg; exact La]).
  destruct (reading_parses unq _ _ V R') as (d3 & E3 & _ & En3). rewrite E in E3. injection E3 as <-. rewrite En3 at 2. symmetry.
  apply numbered_fixed; [intros j; destruct j; reflexivity|]. symmetry. exact En.
Qed.

(** ** The whole *)

Theorem value_replaced input d i sp t v A B : valid_utf8 input = true -> parse unq input = Ok d -> In i (d_instructions d) ->
  value_place i sp -> A = firstn (s_start sp) input -> B = skipn (s_end sp) input ->
  value_text unq A i t v -> quotes_apart A (t ++ B) ->
  lines_before (firstn (s_start (instruction_span i)) input) (skipn (s_start (instruction_span i)) input) ->
  s_start sp < s_end sp /\ s_end sp <= length input /\
  (valid_utf8 (A ++ t ++ B) = true ->
   let g := replacement (s_start sp) (s_end sp) (length t) in
   exists l1 l2 d', d_instructions d = l1 ++ i :: l2 /\ parse unq (A ++ t ++ B) = Ok d' /\ d_content d' = A ++ t ++ B /\
     d_instructions d' = map (move_instruction g) l1 ++ move_instruction g (with_value sp v i) :: map (move_instruction g) l2).
Proof.
  intros V E Hi Hp EA EB Hv Hq (b & Hb & Hpre). pose proof (parse_content _ _ _ E) as Ec.
  pose proof (C03_spans_sliceable unq input d i (instruction_part i) V E Hi (or_introl eq_refl)) as S1. rewrite Ec in S1. cbn [instruction_part part_span] in S1.
  destruct S1 as (L1 & L2 & _). remember (s_start (instruction_span i)) as k eqn:Ek. remember (skipn k input) as r eqn:Er.
  assert (Lk : length (firstn k input) = k) by (apply firstn_length_le; lia).
  destruct Hpre as [Eb|(a & n & Eb & Ca & Qa & Ba)].
  - pose proof (cut_input _ _ _ _ Eb (eq_sym Er)) as Ei. rewrite Eb in Lk. rewrite Ei in V, E.
    destruct (first_replaced b r d i sp t v V E Hb Hi (eq_trans (eq_sym Ek) (eq_sym Lk)) Hp) as (wa & X & rest & l2 & Ew & HX & Esp & El & _ & K).
    assert (Ei2 : input = (b ++ wa) ++ X ++ rest) by (rewrite Ei, Ew, <- app_assoc; reflexivity).
    destruct (at_cut (b ++ wa) X rest sp) as [F1 F2]; [rewrite app_length; exact Esp|]. rewrite <- Ei2, <- EA in F1. rewrite <- Ei2, <- EB in F2.
    assert (HL : 0 < length X) by (destruct X; [congruence|cbn; lia]).
    split; [rewrite Esp; cbn [at_ s_start s_end]; lia|]. split; [rewrite Esp, Ei2; cbn [at_ s_end]; rewrite !app_length; lia|].
    intros V'. cbv zeta. rewrite F1, F2, <- app_assoc in V' |- *. rewrite F1 in Hv, Hq. rewrite F2 in Hq.
    destruct (K [] V' Hv Hq) as (d' & E' & Ec' & El'). exists [], l2, d'. cbn [map app]. auto.
  - pose proof (cut_input _ _ _ _ Eb (eq_sym Er)) as Ei. rewrite Eb in Lk. rewrite <- !app_assoc in Ei.
    destruct Ba as (Bn & Bcr & Blf). pose proof (newline_valid _ Bn) as Vn.
    assert (Va : valid_utf8 a = true).
    { rewrite Ei, app_assoc in V. apply (valid_utf8_app_l a n); [|exact Vn]. apply (valid_lines _ _ V). apply Mirror.newline_ends_line. exact Bn. }
    assert (Vr : valid_utf8 (b ++ r) = true).
    { rewrite Ei, valid_utf8_app, valid_utf8_app in V; [exact V|exact Vn|exact Va]. }
    destruct (C56_joined unq a n (b ++ r) Va Vr Ca Qa (conj Bn (conj Bcr Blf))) as (J1 & J2 & _).
    rewrite Ei in E. destruct (J2 d E) as (da & db & Ea & Edb). destruct (J1 da db Ea Edb) as (d0 & E0 & _ & El0 & _). rewrite E in E0. injection E0 as <-.
    set (kk := length (a ++ n)) in *. set (m := count_from (d_instructions da)) in *.
    assert (Lk' : k = kk + length b) by (rewrite <- Lk; unfold kk; rewrite !app_length; lia).
    assert (Hin : exists i0, In i0 (d_instructions db) /\ i = later kk m i0).
    { rewrite El0 in Hi. apply in_app_or in Hi. destruct Hi as [Hi|Hi]; [exfalso|apply in_map_iff in Hi; destruct Hi as (i0 & K1 & K2); eauto].
      pose proof (C03_spans_sliceable unq a da i (instruction_part i) Va Ea Hi (or_introl eq_refl)) as S2. rewrite (parse_content _ _ _ Ea) in S2.
      cbn [instruction_part part_span] in S2. destruct S2 as (L3 & L4 & _). unfold kk in Lk'. rewrite app_length in Lk'.
      assert (0 < length n) by (destruct Bn; cbn; lia). lia. }
    destruct Hin as (i0 & Hi0 & Eii). rewrite Eii, later_start in Ek. rewrite Eii in Hp. destruct (place_later _ _ _ _ Hp) as (sp0 & Esp0 & Hp0).
    destruct (first_replaced b r db i0 sp0 t v Vr Edb Hb Hi0 ltac:(lia) Hp0) as (wa & X & rest & l2 & Ew & HX & Esp & El & (c & wa' & Ewa & Hc) & K).
    assert (Ei2 : input = (a ++ n ++ b ++ wa) ++ X ++ rest) by (rewrite Ei, Ew, <- !app_assoc; reflexivity).
    destruct (at_cut (a ++ n ++ b ++ wa) X rest sp) as [F1 F2].
    { rewrite Esp0, Esp. unfold at_, move_span, kk. cbn [s_start s_end]. rewrite !app_length. f_equal; lia. }
    rewrite <- Ei2, <- EA in F1. rewrite <- Ei2, <- EB in F2.
    assert (HL : 0 < length X) by (destruct X; [congruence|cbn; lia]).
    split; [rewrite Esp0, Esp; cbn [move_span at_ s_start s_end]; lia|].
    split; [rewrite Esp0, Esp, Ei2; unfold kk; cbn [move_span at_ s_end]; rewrite !app_length; lia|].
    intros V'. cbv zeta. rewrite F1, F2 in *. rewrite <- !app_assoc in V' |- *.
    assert (Vr' : valid_utf8 (b ++ wa ++ t ++ rest) = true).
    { rewrite valid_utf8_app, valid_utf8_app in V'; [exact V'|exact Vn|exact Va]. }
    rewrite Eii in Hv. apply text_later in Hv.
    destruct (K (a ++ n) Vr') as (db' & E' & Ec' & El'); [rewrite <- !app_assoc; exact Hv|rewrite <- !app_assoc; exact Hq|].
    assert (Ba' : breaks a n (b ++ wa ++ t ++ rest)).
    { split; [exact Bn|]. split; [|exact Blf]. intros K1 (y & K2). apply (Bcr K1). rewrite Ew, Ewa. rewrite Ewa in K2. destruct b as [|b0 b]; cbn [app] in *.
      - injection K2 as -> _. eexists; reflexivity.
      - injection K2 as -> _. eexists; reflexivity. }
    assert (Qa' : quotes_apart a (n ++ b ++ wa ++ t ++ rest)).
    { replace (n ++ b ++ wa ++ t ++ rest) with ((n ++ b ++ wa) ++ t ++ rest) by (rewrite <- !app_assoc; reflexivity).
      apply (quotes_extend a (n ++ b ++ wa) X t rest); [rewrite <- !app_assoc, <- Ew; exact Qa|exact Hq]. }
    destruct (C56_joined unq a n (b ++ wa ++ t ++ rest) Va Vr' Ca Qa' Ba') as (J1' & _ & _).
    destruct (J1' da db' Ea E') as (d' & Ed' & Ecd' & Eld' & _). exists (d_instructions da), (map (later kk m) l2), d'.
    split; [rewrite El0, El, Eii; reflexivity|]. split; [exact Ed'|]. split; [exact Ecd'|].
    assert (Hg : forall x, replacement (s_start sp) (s_end sp) (length t) (kk + x) = kk + replacement (s_start sp0) (s_end sp0) (length t) x).
    { intros x. rewrite Esp0. unfold replacement, move_span. cbn [s_start s_end].
      destruct (Nat.leb_spec (kk + x) (kk + s_start sp0)); destruct (Nat.leb_spec x (s_start sp0)); lia. }
    rewrite Eld', El'. cbn [map]. fold kk m. f_equal; [|f_equal].
    + symmetry. apply (kept a da _ Va Ea). intros x Lx. unfold replacement. rewrite (proj2 (Nat.leb_le _ _)); [reflexivity|].
      rewrite Esp0, Esp. unfold kk. cbn [move_span at_ s_start]. rewrite app_length. lia.
    + rewrite Eii, Esp0, with_later. rewrite <- Esp0. symmetry. apply move_later. exact Hg.
    + rewrite !map_map. apply map_ext. intros j. symmetry. apply move_later. exact Hg.
Qed.

End Doc.
