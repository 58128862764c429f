(** Parsing two documents joined by a line break: see Mirror.v for the grammar. *)

From Coq Require Import String.
From Verif Require TwinDoc.
From Verif Require Import Bytes BytesFacts Grammar Peg PegFacts Result Ast Image Splicer Convert Dockerfile DocFacts SpecDoc
  SpecSyntax SpecMove SpecClear SpecJoin PegRules PegTokens PegQuoted Sound SoundInstr Forward Forward2 Forward3 Forward4 Forward5 Shift ConvertMove SwapParse SwapDoc ParseEdit Mirror.
Local Open Scope nat_scope.

Notation line := (Seq NEWLINE (Call R_meta_step)).

(** ** Runs at other positions: also from the start, for rules that do not ask for it *)

Fixpoint anywhere (e : expr) : bool :=
  match e with
  | Soi => false
  | Call R_dockerfile => false
  | NegPred a | Opt a | Rep a => anywhere a
  | Seq a b | Alt a b => anywhere a && anywhere b
  | _ => true
  end.

Lemma anywhere_rule r : r <> R_dockerfile -> anywhere (snd (grammar r)) = true.
Proof. destruct r; try reflexivity; congruence. Qed.

Lemma eval_anywhere g n : forall c e p s p', anywhere e = true -> shifts g p s p' -> eval n c e p' s = move_res g (eval n c e p s).
Proof.
  induction n as [|n IH]; intros c e p s p' He Hg; [reflexivity|].
  assert (Next : forall c' e' q s1 f, eval n c' e' p s = Done q s1 f -> shifts g q s1 (g q)).
  { intros c' e' q s1 f H. apply eval_consumes in H. destruct H as (w & -> & ->).
    pose proof (shifts_app _ _ _ _ _ Hg) as K. rewrite (shifts_here _ _ _ _ K). exact K. }
  assert (Step : forall w s1, s = w ++ s1 -> p' + length w = g (p + length w)).
  { intros w s1 ->. symmetry. apply Hg. rewrite app_length. lia. }
  rewrite !eval_S. destruct e as [pat|pat|lo hi| | | |r|e|a b|a b|e|e]; cbn [anywhere] in He; try discriminate.
  - destruct (match_str pat s) eqn:E; [|reflexivity]. cbn [move_res map]. f_equal.
    apply match_str_app in E. exact (Step _ _ E).
  - destruct (match_insens pat s) eqn:E; [|reflexivity]. cbn [move_res map]. f_equal.
    apply match_insens_app in E. destruct E as (w & -> & E). rewrite <- (map_length lower_byte pat).
    change (map lower_byte pat) with (to_lower pat). rewrite <- E. unfold to_lower. rewrite map_length. exact (Step _ _ eq_refl).
  - destruct s as [|x s]; [reflexivity|]. destruct (in_range lo hi x); [|reflexivity]. cbn [move_res map]. f_equal.
    apply (Step [x] s). reflexivity.
  - destruct s as [|x s]; [reflexivity|]. cbn [move_res map]. f_equal.
    apply (Step _ (skipn (utf8_width x) (x :: s))). symmetry. apply firstn_skipn.
  - destruct s; [|reflexivity]. cbn [move_res map]. f_equal. symmetry. apply (shifts_here _ _ _ _ Hg).
  - rewrite (IH _ _ p s p' (anywhere_rule r ltac:(intros ->; discriminate)) Hg). destruct (eval n _ (snd (grammar r)) p s) as [q s1 f| |]; [|reflexivity..].
    cbn [move_res]. rewrite move_rule_tokens, (shifts_here _ _ _ _ Hg). reflexivity.
  - rewrite (IH _ _ p s p' He Hg). destruct (eval n _ e p s) as [q s1 f| |]; cbn [move_res map]; [reflexivity| |reflexivity].
    f_equal. symmetry. apply (shifts_here _ _ _ _ Hg).
  - apply andb_true_iff in He. destruct He as [Ha Hb]. rewrite (IH _ a p s p' Ha Hg). destruct (eval n c a p s) as [q s1 f| |] eqn:E; [|reflexivity..]. cbn [move_res].
    rewrite (IH _ b q s1 _ Hb (Next _ _ _ _ _ E)).
    destruct (eval n c b q s1); [|reflexivity..]. cbn [move_res]. rewrite map_app. reflexivity.
  - apply andb_true_iff in He. destruct He as [Ha Hb]. rewrite (IH _ a p s p' Ha Hg). destruct (eval n c a p s) as [q s1 f| |] eqn:E; cbn [move_res]; [reflexivity| |reflexivity].
    apply IH; assumption.
  - rewrite (IH _ e p s p' He Hg). destruct (eval n c e p s) as [q s1 f| |] eqn:E; cbn [move_res map]; [reflexivity| |reflexivity].
    f_equal. symmetry. apply (shifts_here _ _ _ _ Hg).
  - rewrite (IH _ e p s p' He Hg). destruct (eval n c e p s) as [q s1 f| |] eqn:E; cbn [move_res map].
    + rewrite (IH _ (Rep e) q s1 _ He (Next _ _ _ _ _ E)).
      destruct (eval n c (Rep e) q s1); [|reflexivity..]. cbn [move_res]. rewrite map_app. reflexivity.
    + f_equal. symmetry. apply (shifts_here _ _ _ _ Hg).
    + reflexivity.
Qed.

Lemma run_anywhere k c e p s : anywhere e = true -> run c e (k + p) s = move_res (fun x => k + x) (run c e p s).
Proof. intros He. apply eval_anywhere; [exact He|]. intros i Hi. lia. Qed.

(** ** A document is a sequence of lines *)

Definition document_lines : expr := Seq (Call R_meta_step) (Rep line).

Lemma run_dockerfile input : run ctx0 (Call R_dockerfile) 0 input =
  match run ctx0 document_lines 0 input with
  | Done q [] f => Done q [] [Node R_dockerfile 0 q (f ++ [Node R_EOI q q []])]
  | Done _ _ _ => Fail
  | x => x
  end.
Proof.
  rewrite run_call. change (rule_inner (fst (grammar R_dockerfile)) ctx0) with ctx0. cbn [grammar fst snd].
  rewrite run_seq by reflexivity. rewrite run_soi. cbn [Nat.eqb]. rewrite run_seq by reflexivity. unfold document_lines. rewrite (run_seq ctx0 (Call R_meta_step) (Rep line)) by reflexivity.
  destruct (run ctx0 (Call R_meta_step) 0 input) as [q s f| |]; [|reflexivity..]. rewrite run_seq by reflexivity.
  destruct (run ctx0 (Rep line) q s) as [q2 s2 f2| |]; [|reflexivity..]. rewrite run_call. cbn [grammar fst snd rule_inner]. rewrite run_eoi.
  destruct s2; [|reflexivity]. cbn. rewrite app_assoc. reflexivity.
Qed.

Lemma meta_done p s : run ctx0 (Call R_meta_step) p s <> Fail.
Proof.
  rewrite run_call. change (rule_inner (fst (grammar R_meta_step)) ctx0) with ctx0. cbn [grammar fst snd].
  rewrite run_seq by reflexivity. rewrite run_ws_star. rewrite run_seq by reflexivity. rewrite run_opt by reflexivity.
  destruct (run ctx0 (Alt (Call R_step) comment) (p + length (take_while is_blank s)) (drop_while is_blank s)); rewrite ?run_ws_star; discriminate.
Qed.

Lemma lines_done p s : exists q s1 f, run ctx0 (Rep line) p s = Done q s1 f.
Proof. apply rep_done. reflexivity. Qed.

Lemma lines_run a n b : valid_utf8 a = true -> valid_utf8 b = true -> complete a -> quotes_apart a (n ++ b) -> breaks a n b ->
  run ctx0 document_lines 0 (a ++ n ++ b) =
  match run ctx0 document_lines 0 a with
  | Done q [] f =>
    match run ctx0 document_lines 0 b with
    | Done q2 s2 f2 => Done (length (a ++ n) + q2) s2 (f ++ map (move_tree (fun x => length (a ++ n) + x)) f2)
    | x => x
    end
  | Done q u f => Done q (u ++ n ++ b) f
  | x => x
  end.
Proof.
  intros Ha Hb HC HQ (Hn & H1 & H2).
  assert (HR : newline_here (n ++ b) = true) by (destruct Hn; reflexivity).
  assert (HvR : valid_utf8 (n ++ b) = true) by (destruct Hn; exact Hb).
  assert (HL : begins_with LF (n ++ b) -> ~ exists a0, a = a0 ++ [CR]).
  { intros [t E]. apply H2. destruct Hn; [exists []; reflexivity|discriminate E|discriminate E]. }
  unfold document_lines. rewrite !run_seq by reflexivity.
  assert (K := meta_mirror a (n ++ b) HvR HR HC HQ HL 0 a). unfold mirror in K.
  assert (Hl : line_here a a). { split; [exists []; split; [reflexivity|left; reflexivity]|exact Ha]. }
  specialize (K Hl). pose proof (run_total ctx0 (Call R_meta_step) 0 a (good_call _)) as T.
  destruct (run ctx0 (Call R_meta_step) 0 a) as [q u f| |] eqn:E; [| |congruence]; cbn [mirrors] in K; rewrite K; [|reflexivity].
  pose proof (run_valid _ _ _ _ _ _ _ E Ha eq_refl) as Hu.
  assert (Hi : inside a u). { destruct (run_consumes _ _ _ _ _ _ _ E) as (w & Ew & _). exists w. exact Ew. }
  destruct (run ctx0 (Rep line) q u) as [q2 u2 f2| |] eqn:E2.
  - rewrite (lines_join a (n ++ b) HvR HR HC HQ HL q u Hi Hu q2 u2 f2 E2). destruct u2 as [|x u2]; [|reflexivity].
    assert (Eq : q2 = length a).
    { destruct (run_consumes _ _ _ _ _ _ _ E) as (w & Ew & Eq). destruct (run_consumes _ _ _ _ _ _ _ E2) as (w2 & Ew2 & Eq2).
      rewrite Ew, Ew2, app_nil_r, app_length. lia. }
    subst q2. rewrite run_rep by reflexivity. rewrite run_seq by reflexivity. rewrite newline_fwd.
    + replace (length a + length n) with (length (a ++ n) + 0) by (rewrite app_length; lia).
      rewrite run_anywhere by reflexivity. pose proof (meta_done 0 b) as D. destruct (run ctx0 (Call R_meta_step) 0 b) as [q3 s3 f3| |]; cbn [move_res]; [|congruence|reflexivity].
      rewrite run_anywhere by reflexivity. destruct (run ctx0 (Rep line) q3 s3) as [q4 s4 f4| |]; cbn [move_res app]; [|reflexivity..].
        rewrite map_app, app_assoc. reflexivity.
    + exact Hn.
    + exact H1.
  - destruct (lines_done q u) as (q3 & s3 & f3 & E3). congruence.
  - destruct (lines_done q u) as (q3 & s3 & f3 & E3). congruence.
Qed.

(** ** Conversion *)

Lemma loop_start : loop_inv (DocState [] [] false 0).
Proof.
  split; [reflexivity| |reflexivity|].
  - intros l1 f l2 H. destruct l1; discriminate.
  - exists []. split; [|reflexivity]. exists []. split; [reflexivity|]. split; [constructor|exact I].
Qed.

Lemma tree_within_move g a b t : tree_within a b t -> (forall x y, a <= x -> x <= y -> y <= b -> g x <= g y) -> tree_within (g a) (g b) (move_tree g t).
Proof.
  revert a b. induction t as [r x y l IH] using tree_induction. intros a b H Hg. apply tree_within_node in H. destruct H as (H1 & H2 & H3 & H4).
  cbn [move_tree]. apply tree_within_node. split; [apply Hg; lia|]. split; [apply Hg; lia|]. split; [apply Hg; lia|].
  apply Forall_map. rewrite Forall_forall in *. intros t Ht. apply (IH t Ht); [apply H4; exact Ht|]. intros; apply Hg; lia.
Qed.

Lemma settled_prefix a r t x y : tree_within x y t -> y <= length a -> settled a (a ++ r) (fun i => i) t.
Proof.
  revert x y. induction t as [k i j l IH] using tree_induction. intros x y H Hy. apply tree_within_node in H. destruct H as (H1 & H2 & H3 & H4).
  apply settled_node. split.
  - unfold slice. rewrite skipn_app, firstn_app, skipn_length. replace (j - i - (length a - i)) with 0 by lia. rewrite firstn_O, app_nil_r. reflexivity.
  - rewrite Forall_forall in *. intros t Ht. apply (IH t Ht i j); [apply H4; exact Ht|lia].
Qed.

Lemma settled_suffix a b t : settled b (a ++ b) (fun i => length a + i) t.
Proof.
  induction t as [k i j l IH] using tree_induction. apply settled_node. split; [|exact IH].
  unfold slice. rewrite skipn_app, (skipn_all2 a) by lia. cbn [app]. f_equal; [lia|]. f_equal. lia.
Qed.

Section Unq.
Variable unq : bytes -> option bytes.

Lemma move_arg_id x : move_arg (fun i => i) x = x.
Proof. pose proof (move_instruction_id (IArg x)) as H. cbn [move_instruction] in H. injection H as H. exact H. Qed.

Lemma move_state_id st : move_state (fun i => i) st = st.
Proof.
  destruct st as [l ga ff k]. unfold move_state. cbn [ds_instructions ds_global_args ds_from_found ds_from_index].
  rewrite (map_ext _ (fun x => x) move_instruction_id), map_id, (map_ext _ (fun x => x) move_arg_id), map_id. reflexivity.
Qed.

Lemma steps_prefix a r f q st : Forall (tree_within 0 q) f -> q <= length a ->
  for_each (doc_step unq (a ++ r)) f st = for_each (doc_step unq a) f st.
Proof.
  intros Hf Hq. assert (S : Forall (settled a (a ++ r) (fun i => i)) f).
  { eapply Forall_impl; [|exact Hf]. intros t Ht. apply (settled_prefix a r t 0 q); assumption. }
  pose proof (doc_steps_move unq a (a ++ r) (fun i => i) f S st) as K. rewrite move_state_id in K.
  assert (E : map (move_tree (fun i => i)) f = f).
  { rewrite <- (map_id f) at 2. apply map_ext_in. intros t Ht. rewrite Forall_forall in Hf. apply (move_tree_same _ 0 q t (fun _ _ => eq_refl) (Hf t Ht)). }
  rewrite E in K. rewrite K. destruct (for_each (doc_step unq a) f st); [|reflexivity..]. cbn [omap]. rewrite move_state_id. reflexivity.
Qed.

(** The state after [l] and what comes from a text that begins [k] bytes later *)
Definition follows (k m : nat) (l : list instruction) (st st' : doc_state) : Prop :=
  ds_instructions st' = l ++ map (later k m) (ds_instructions st) /\ ds_from_index st' = m + ds_from_index st.

Definition same_end {S T} (P : S -> T -> Prop) (x : outcome S) (y : outcome T) : Prop :=
  match x, y with
  | Ok a, Ok b => P a b
  | Err e, Err e' => e = e'
  | Panic, Panic => True
  | Diverge, Diverge => True
  | _, _ => False
  end.

Lemma step_follows k m l a b st st' t : length a = k -> follows k m l st st' ->
  same_end (follows k m l) (doc_step unq b st t) (doc_step unq (a ++ b) st' (move_tree (fun i => k + i) t)).
Proof.
  intros <- [H1 H2]. unfold doc_step. replace (t_rule (move_tree (fun i => length a + i) t)) with (t_rule t) by (destruct t; reflexivity).
  pose proof (instruction_move unq b (a ++ b) (fun i => length a + i) t (settled_suffix a b t)) as K.
  assert (Q : same_end (follows (length a) m l)
    (instruction <- instruction_of unq b t;;
     match instruction with
     | IFrom f => Ok (DocState (ds_instructions st ++ [IFrom (set_index f (ds_from_index st))]) (ds_global_args st) true (S (ds_from_index st)))
     | IArg a => Ok (DocState (ds_instructions st ++ [IArg a]) (if ds_from_found st then ds_global_args st else ds_global_args st ++ [a]) (ds_from_found st) (ds_from_index st))
     | i => Ok (DocState (ds_instructions st ++ [i]) (ds_global_args st) (ds_from_found st) (ds_from_index st))
     end)
    (instruction <- instruction_of unq (a ++ b) (move_tree (fun i => length a + i) t);;
     match instruction with
     | IFrom f => Ok (DocState (ds_instructions st' ++ [IFrom (set_index f (ds_from_index st'))]) (ds_global_args st') true (S (ds_from_index st')))
     | IArg a => Ok (DocState (ds_instructions st' ++ [IArg a]) (if ds_from_found st' then ds_global_args st' else ds_global_args st' ++ [a]) (ds_from_found st') (ds_from_index st'))
     | i => Ok (DocState (ds_instructions st' ++ [i]) (ds_global_args st') (ds_from_found st') (ds_from_index st'))
     end)).
  { rewrite K. destruct (instruction_of unq b t) as [i|e| |]; cbn [omap bind same_end]; [|reflexivity|exact I|exact I].
    destruct i; cbn [move_instruction same_end]; unfold follows; cbn [ds_instructions ds_from_index];
      rewrite H1, H2, map_app, <- app_assoc; (split; [reflexivity|lia]). }
  destruct (t_rule t); try exact Q; (split; assumption).
Qed.

Lemma steps_follow k m l a b f : length a = k -> forall st st', follows k m l st st' ->
  same_end (follows k m l) (for_each (doc_step unq b) f st) (for_each (doc_step unq (a ++ b)) (map (move_tree (fun i => k + i)) f) st').
Proof.
  intros Ha. induction f as [|t f IH]; intros st st' H; [exact H|]. cbn [map for_each].
  pose proof (step_follows k m l a b st st' t Ha H) as K.
  destruct (doc_step unq b st t) as [s1|e| |], (doc_step unq (a ++ b) st' (move_tree (fun i => k + i) t)) as [s2|e2| |]; cbn [same_end bind] in *; try contradiction; auto.
Qed.

(** ** Parsing *)

Lemma parse_lines input : parse unq input =
  match run ctx0 document_lines 0 input with
  | Done q [] f => st <- for_each (doc_step unq input) f (DocState [] [] false 0);; Ok (Dockerfile input (ds_global_args st) (ds_instructions st))
  | OutOfFuel => Diverge
  | _ => Err EParse
  end.
Proof.
  unfold parse. rewrite pest_parse_run, run_dockerfile. destruct (run ctx0 document_lines 0 input) as [q [|x s] f| |]; try reflexivity.
  cbn [t_children]. rewrite for_each_app. destruct (for_each (doc_step unq input) f (DocState [] [] false 0)); reflexivity.
Qed.

Theorem join_parse a n b : valid_utf8 a = true -> valid_utf8 b = true -> complete a -> quotes_apart a (n ++ b) -> breaks a n b ->
  (forall da db, parse unq a = Ok da -> parse unq b = Ok db -> exists d, parse unq (a ++ n ++ b) = Ok d /\ d_content d = a ++ n ++ b /\
    d_instructions d = d_instructions da ++ map (later (length (a ++ n)) (count_from (d_instructions da))) (d_instructions db)) /\
  (forall d, parse unq (a ++ n ++ b) = Ok d -> exists da db, parse unq a = Ok da /\ parse unq b = Ok db) /\
  (forall da e, parse unq a = Ok da -> parse unq b = Err e -> parse unq (a ++ n ++ b) = Err e).
Proof.
  intros Ha Hb HC HQ HB. pose proof (lines_run a n b Ha Hb HC HQ HB) as R. rewrite !parse_lines, R.
  destruct (run ctx0 document_lines 0 a) as [q [|x u] f| |] eqn:E; try (split; [|split]; intros; discriminate).
  assert (Eq : q = length a). { destruct (run_consumes _ _ _ _ _ _ _ E) as (w & -> & ->). rewrite app_nil_r. reflexivity. }
  pose proof (run_within _ _ _ _ _ _ _ E) as W.
  destruct (run ctx0 document_lines 0 b) as [q2 [|y s2] f2| |]; try (split; [|split]; intros; congruence).
  - rewrite for_each_app, (steps_prefix a (n ++ b) f q) by (assumption || lia).
    destruct (for_each (doc_step unq a) f (DocState [] [] false 0)) as [sta|e| |] eqn:Ea; cbn [bind]; try (split; [|split]; intros; discriminate).
    assert (Ei : ds_from_index sta = count_from (ds_instructions sta)).
    { apply li_index. apply (doc_loop_inv unq a f (DocState [] [] false 0)); [|exact Ea]. apply loop_start. }
    pose proof (steps_follow (length (a ++ n)) (count_from (ds_instructions sta)) (ds_instructions sta) (a ++ n) b f2 eq_refl
      (DocState [] [] false 0) sta) as K.
    assert (F : follows (length (a ++ n)) (count_from (ds_instructions sta)) (ds_instructions sta) (DocState [] [] false 0) sta).
    { split; cbn [ds_instructions ds_from_index map]; [rewrite app_nil_r; reflexivity|lia]. }
    specialize (K F). rewrite <- app_assoc in K.
    destruct (for_each (doc_step unq b) f2 (DocState [] [] false 0)) as [stb|e| |],
      (for_each (doc_step unq (a ++ n ++ b)) (map (move_tree (fun i => length (a ++ n) + i)) f2) sta) as [st|e2| |]; cbn [same_end bind] in *; try contradiction;
      (split; [intros da db Eda Edb; try discriminate|split; [intros d Ed; try discriminate|intros da e3 Eda Edb; try discriminate]]).
    + injection Eda as <-. injection Edb as <-. eexists. split; [reflexivity|]. cbn [d_content d_instructions]. split; [reflexivity|apply K].
    + eauto.
    + congruence.
Qed.

Theorem join_errors a n b : valid_utf8 a = true -> valid_utf8 b = true -> complete a -> quotes_apart a (n ++ b) -> breaks a n b ->
  (forall e, parse unq a = Err e -> parse unq b <> Err EParse -> parse unq (a ++ n ++ b) = Err e) /\
  (parse unq b = Err EParse -> parse unq (a ++ n ++ b) = Err EParse).
Proof.
  intros Ha Hb HC HQ HB. pose proof (lines_run a n b Ha Hb HC HQ HB) as R. rewrite (parse_lines (a ++ n ++ b)), R.
  pose proof (run_total ctx0 document_lines 0 b eq_refl) as T. split.
  - intros e Ee Hne. rewrite parse_lines in Ee, Hne.
    destruct (run ctx0 document_lines 0 a) as [q [|x u] f| |] eqn:E; [|injection Ee as <-; reflexivity..|discriminate].
    assert (Eq : q = length a). { destruct (run_consumes _ _ _ _ _ _ _ E) as (w & -> & ->). rewrite app_nil_r. reflexivity. }
    pose proof (run_within _ _ _ _ _ _ _ E) as W.
    destruct (run ctx0 document_lines 0 b) as [q2 [|y s2] f2| |]; try congruence.
    rewrite for_each_app, (steps_prefix a (n ++ b) f q) by (assumption || lia).
    destruct (for_each (doc_step unq a) f (DocState [] [] false 0)) as [sta|e1| |]; try discriminate. exact Ee.
  - intros Eb. apply (TwinDoc.rejected_run unq b Hb) in Eb. rewrite run_dockerfile in Eb.
    pose proof (run_total ctx0 document_lines 0 a eq_refl) as T2.
    destruct (run ctx0 document_lines 0 a) as [q [|x u] f| |] eqn:E; [|reflexivity..|congruence].
    destruct (run ctx0 document_lines 0 b) as [q2 [|y s2] f2| |]; try congruence; try reflexivity.
Qed.

(** ** Lines between *)

Lemma idle_meta p t s : (blanks t \/ exists b c, t = b ++ c /\ blanks b /\ comment_text c) -> at_line_end s -> valid_utf8 s = true ->
  exists f, run ctx0 (Call R_meta_step) p (t ++ s) = Done (p + length t) s f /\ comments f.
Proof.
  intros Ht Hs Hv.
  assert (Hend : run ctx0 (Rep ws) (p + length t) s = Done (p + length t) s []).
  { rewrite <- (app_nil_l s). rewrite blanks_fwd; [cbn [length app]; f_equal; lia|constructor|apply line_end_not_blank; exact Hs]. }
  rewrite run_call. change (snd (grammar R_meta_step)) with (Seq (Rep ws) (Seq (Opt (Alt (Call R_step) comment)) (Rep ws))).
  change (fst (grammar R_meta_step)) with Silent. cbn [rule_inner rule_outer rule_tokens]. rewrite run_seq by reflexivity.
  destruct Ht as [Hb|(b & c & -> & Hb & Hc)].
  - rewrite blanks_fwd; [|exact Hb|apply line_end_not_blank; exact Hs].
    rewrite run_seq by reflexivity. rewrite run_opt by reflexivity. rewrite run_alt by reflexivity.
    rewrite step_fails; [|apply line_end_no_letter; exact Hs|exact Hv].
    rewrite no_letter_comment_fails by assumption. rewrite Hend. exists []. split; [reflexivity|constructor].
  - rewrite <- app_assoc. rewrite blanks_fwd; [|exact Hb|destruct Hc as (u & -> & _); reflexivity].
    rewrite run_seq by reflexivity. rewrite run_opt by reflexivity. rewrite run_alt by reflexivity.
    assert (Hvc : valid_utf8 (c ++ s) = true) by (rewrite valid_comment by exact Hc; exact Hv).
    rewrite step_fails; [|apply comment_no_letter; exact Hc|exact Hvc].
    rewrite comment_fwd by assumption. rewrite app_length, Nat.add_assoc in Hend. rewrite Hend.
    eexists. split; [rewrite app_length, Nat.add_assoc; reflexivity|]. cbn [app]. constructor; [reflexivity|constructor].
Qed.

(** After one line come the lines of the rest. *)
Lemma after_line t n r f : newline n -> (n = [CR] -> ~ begins_with LF r) ->
  run ctx0 (Call R_meta_step) 0 (t ++ n ++ r) = Done (length t) (n ++ r) f ->
  run ctx0 document_lines 0 (t ++ n ++ r) =
  match run ctx0 document_lines 0 r with
  | Done q s f2 => Done (length (t ++ n) + q) s (f ++ map (move_tree (fun x => length (t ++ n) + x)) f2)
  | x => x
  end.
Proof.
  intros Hn H1 E. unfold document_lines. rewrite !run_seq by reflexivity. rewrite E. rewrite run_rep by reflexivity.
  rewrite run_seq by reflexivity. rewrite newline_fwd by assumption.
  replace (length t + length n) with (length (t ++ n) + 0) by (rewrite app_length; lia).
  rewrite run_anywhere by reflexivity. pose proof (meta_done 0 r) as D.
  destruct (run ctx0 (Call R_meta_step) 0 r) as [q3 s3 f3| |]; cbn [move_res]; [|congruence|reflexivity].
  rewrite run_anywhere by reflexivity. destruct (run ctx0 (Rep line) q3 s3) as [q4 s4 f4| |]; cbn [move_res app]; [|reflexivity..].
  rewrite map_app. reflexivity.
Qed.

Lemma move_tree_twice g h t : move_tree g (move_tree h t) = move_tree (fun x => g (h x)) t.
Proof.
  induction t as [r a b l IH] using tree_induction. cbn [move_tree]. f_equal. rewrite map_map. apply map_ext_in.
  rewrite Forall_forall in IH. exact IH.
Qed.

Lemma comments_move g f : comments f -> comments (map (move_tree g) f).
Proof. intros H. unfold comments in *. apply Forall_map. eapply Forall_impl; [|exact H]. intros [r a b l] Ht. exact Ht. Qed.

Lemma idle_lines m : forall k l b, length l <= m -> skipped_lines k l -> valid_utf8 b = true -> ((exists l0, l = l0 ++ [CR]) -> ~ begins_with LF b) ->
  exists cs, comments cs /\ run ctx0 document_lines 0 (l ++ b) =
    match run ctx0 document_lines 0 b with
    | Done q s f => Done (length l + q) s (cs ++ map (move_tree (fun x => length l + x)) f)
    | x => x
    end.
Proof.
  assert (Z : forall b, exists cs, comments cs /\ run ctx0 document_lines 0 ([] ++ b) =
    match run ctx0 document_lines 0 b with
    | Done q s f => Done (length (@nil N) + q) s (cs ++ map (move_tree (fun x => length (@nil N) + x)) f)
    | x => x
    end).
  { intros b. exists []. split; [constructor|]. cbn [app length]. destruct (run ctx0 document_lines 0 b) as [q s f| |]; [|reflexivity..].
    cbn [Nat.add]. f_equal. rewrite <- (map_id f) at 1. apply map_ext_in. intros t _. symmetry. clear. induction t as [r a b l IH] using tree_induction.
    cbn [move_tree]. f_equal. rewrite <- (map_id l) at 2. apply map_ext_in. rewrite Forall_forall in IH. exact IH. }
  induction m as [|m IH]; intros k l b Hm Hl Hv Hcr; [destruct l; [apply Z|cbn in Hm; lia]|].
  destruct l as [|x0 l0]; [apply Z|]. remember (x0 :: l0) as l eqn:El.
  assert (Q : exists t n w k', l = t ++ n ++ w /\ newline n /\ skipped_lines k' w /\ (n = [CR] -> ~ begins_with LF w) /\
    (blanks t \/ exists b c, t = b ++ c /\ blanks b /\ comment_text c)).
  { assert (P : exists t n w k', l = t ++ n ++ w /\ newline n /\ skipped_lines k' w /\
      (blanks t \/ exists b c, t = b ++ c /\ blanks b /\ comment_text c)).
    { destruct Hl as [|k t n w Hb Hn Hw|k t c n w Hb Hc Hn Hw]; [discriminate| |].
      - exists t, n, w, k. auto.
      - exists (t ++ c), n, w, k. rewrite <- app_assoc. split; [reflexivity|]. split; [exact Hn|]. split; [exact Hw|]. right. eauto. }
    destruct P as (t & n & w & k' & E & Hn & Hw & Ht). destruct Hn as [| |].
    - exists t, [LF], w, k'. split; [exact E|]. split; [constructor|]. split; [exact Hw|]. split; [discriminate|exact Ht].
    - exists t, [CR; LF], w, k'. split; [exact E|]. split; [constructor|]. split; [exact Hw|]. split; [discriminate|exact Ht].
    - destruct w as [|y w].
      + exists t, [CR], [], k'. split; [exact E|]. split; [constructor|]. split; [exact Hw|]. split; [intros _ [z Ez]; discriminate|exact Ht].
      + destruct (N.eq_dec y LF) as [->|Hy].
        * exists t, [CR; LF], w, k'. split; [exact E|]. split; [constructor|]. split; [apply skipped_after_lf; exact Hw|]. split; [discriminate|exact Ht].
        * exists t, [CR], (y :: w), k'. split; [exact E|]. split; [constructor|]. split; [exact Hw|]. split; [intros _ [z Ez]; congruence|exact Ht]. }
  destruct Q as (t & n & w & k' & E & Hn & Hw & Hnw & Ht). clear El Hl. subst l.
  assert (Hlen : length w <= m). { rewrite !app_length in Hm. destruct Hn; cbn [length] in Hm; lia. }
  destruct (IH k' w b Hlen Hw Hv) as (cs & Hcs & K).
  { intros (l1 & ->). apply Hcr. exists (t ++ n ++ l1). rewrite <- !app_assoc. reflexivity. }
  assert (Hvw : valid_utf8 (w ++ b) = true) by (rewrite (valid_skipped k') by exact Hw; exact Hv).
  rewrite <- !app_assoc. destruct (idle_meta 0 t (n ++ w ++ b) Ht) as (f & Ef & Hf).
  { right. destruct Hn; reflexivity. }
  { destruct Hn; exact Hvw. }
  rewrite (after_line t n (w ++ b) f Hn).
  - rewrite K. exists (f ++ map (move_tree (fun x => length (t ++ n) + x)) cs). split; [apply Forall_app; split; [exact Hf|apply comments_move; exact Hcs]|].
    destruct (run ctx0 document_lines 0 b) as [q s f2| |]; [|reflexivity..]. rewrite app_assoc, (app_length (t ++ n) w). f_equal; [lia|].
    rewrite map_app, <- app_assoc. f_equal. f_equal. rewrite map_map. apply map_ext. intros u. rewrite move_tree_twice.
    clear. induction u as [r x y l IH] using tree_induction. cbn [move_tree]. f_equal; try lia. apply map_ext_in. rewrite Forall_forall in IH. exact IH.
  - intros En [z Ez]. destruct w as [|y w].
    + cbn [app] in Ez. apply Hcr; [exists t; rewrite En; reflexivity|exists z; exact Ez].
    + cbn [app] in Ez. injection Ez as -> _. apply (Hnw En). exists w. reflexivity.
  - exact Ef.
Qed.

Lemma comments_nothing src f st : comments f -> for_each (doc_step unq src) f st = Ok st.
Proof.
  intros H. revert st. induction H as [|t f Ht Hf IH]; intros st; [reflexivity|]. cbn [for_each]. unfold doc_step at 1. rewrite Ht. cbn [bind]. apply IH.
Qed.

(** Positions in the document with the lines of [l] after [c] *)
Lemma settled_insertion c l b t x y : tree_within x y t -> (y < length c \/ length c <= x) ->
  settled (c ++ b) (c ++ l ++ b) (insertion (length c) (length l)) t.
Proof.
  revert x y. induction t as [k i j f IH] using tree_induction. intros x y H Hy. apply tree_within_node in H. destruct H as (H1 & H2 & H3 & H4).
  apply settled_node. split.
  - unfold insertion. destruct Hy as [Hy|Hy].
    + destruct (Nat.ltb_spec i (length c)); [|lia]. destruct (Nat.ltb_spec j (length c)); [|lia].
      unfold slice. rewrite !skipn_app, !firstn_app, !skipn_length. replace (j - i - (length c - i)) with 0 by lia. reflexivity.
    + destruct (Nat.ltb_spec i (length c)); [lia|]. destruct (Nat.ltb_spec j (length c)); [lia|].
      unfold slice. rewrite !skipn_app. rewrite !(skipn_all2 c) by lia. cbn [app]. rewrite (skipn_all2 l) by lia. cbn [app]. f_equal; [lia|]. f_equal. lia.
  - rewrite Forall_forall in *. intros t Ht. apply (IH t Ht i j); [apply H4; exact Ht|lia].
Qed.

Theorem insert_parse a n k l b : valid_utf8 a = true -> valid_utf8 b = true -> complete a ->
  breaks a n b -> quotes_apart a (n ++ b) -> breaks a n (l ++ b) -> quotes_apart a (n ++ l ++ b) ->
  skipped_lines k l -> ((exists l0, l = l0 ++ [CR]) -> ~ begins_with LF b) ->
  parse unq (a ++ n ++ l ++ b) =
    omap (move_dockerfile (insertion (length (a ++ n)) (length l)) (a ++ n ++ l ++ b)) (parse unq (a ++ n ++ b)).
Proof.
  intros Ha Hb HC HB1 HQ1 HB2 HQ2 Hl Hcr.
  assert (Hlb : valid_utf8 (l ++ b) = true) by (rewrite (valid_skipped k) by exact Hl; exact Hb).
  pose proof (lines_run a n b Ha Hb HC HQ1 HB1) as R1. pose proof (lines_run a n (l ++ b) Ha Hlb HC HQ2 HB2) as R2.
  destruct (idle_lines (length l) k l b (le_n _) Hl Hb Hcr) as (cs & Hcs & K). rewrite K in R2. clear K.
  rewrite !parse_lines, R1, R2. clear R1 R2.
  destruct (run ctx0 document_lines 0 a) as [q [|x u] f| |] eqn:E; try reflexivity.
  assert (Eq : q = length a). { destruct (run_consumes _ _ _ _ _ _ _ E) as (w & -> & ->). rewrite app_nil_r. reflexivity. }
  pose proof (run_within _ _ _ _ _ _ _ E) as W.
  destruct (run ctx0 document_lines 0 b) as [q2 [|y s2] f2| |] eqn:E2; try reflexivity. pose proof (run_within _ _ _ _ _ _ _ E2) as W2.
  set (c := a ++ n). set (g := insertion (length c) (length l)).
  assert (Lc : q < length c). { unfold c. rewrite app_length. destruct HB1 as ([] & _); cbn [length]; lia. }
  replace (a ++ n ++ l ++ b) with (c ++ l ++ b) by (unfold c; rewrite <- !app_assoc; reflexivity).
  replace (a ++ n ++ b) with (c ++ b) by (unfold c; rewrite <- !app_assoc; reflexivity).
  assert (Sa : Forall (settled (c ++ b) (c ++ l ++ b) g) f).
  { eapply Forall_impl; [|exact W]. intros t Ht. apply (settled_insertion c l b t 0 q Ht). left. exact Lc. }
  assert (Sb : Forall (settled (c ++ b) (c ++ l ++ b) g) (map (move_tree (fun x => length c + x)) f2)).
  { apply Forall_map. eapply Forall_impl; [|exact W2]. intros t Ht. apply (settled_insertion c l b _ (length c + 0) (length c + q2)); [|right; lia].
    apply (tree_within_move (fun x => length c + x) 0 q2 t Ht); intros; lia. }
  assert (Ma : map (move_tree g) f = f).
  { rewrite <- (map_id f) at 2. apply map_ext_in. intros t Ht. rewrite Forall_forall in W. apply (move_tree_same _ 0 q t); [|apply W; exact Ht].
    intros i Hi. unfold g, insertion. destruct (Nat.ltb_spec i (length c)); lia. }
  assert (Mb : map (move_tree g) (map (move_tree (fun x => length c + x)) f2) = map (move_tree (fun x => length c + x)) (map (move_tree (fun x => length l + x)) f2)).
  { rewrite !map_map. apply map_ext. intros t. rewrite !move_tree_twice. clear. induction t as [r x y m IH] using tree_induction. cbn [move_tree].
    f_equal; [unfold g, insertion..|apply map_ext_in; rewrite Forall_forall in IH; exact IH];
      match goal with |- (if ?u <? ?v then _ else _) = _ => destruct (Nat.ltb_spec u v); lia end. }
  change (DocState [] [] false 0) with (move_state g (DocState [] [] false 0)) at 1.
  rewrite map_app, !for_each_app.
  rewrite <- Ma at 1. rewrite (doc_steps_move unq (c ++ b) (c ++ l ++ b) g f Sa (DocState [] [] false 0)).
  destruct (for_each (doc_step unq (c ++ b)) f (DocState [] [] false 0)) as [st|e| |]; cbn [omap bind]; try reflexivity.
  rewrite for_each_app, (comments_nothing (c ++ l ++ b) (map _ cs)) by (apply comments_move; exact Hcs). cbn [bind]. rewrite <- Mb.
  rewrite (doc_steps_move unq (c ++ b) (c ++ l ++ b) g _ Sb st).
  destruct (for_each (doc_step unq (c ++ b)) (map (move_tree (fun x => length c + x)) f2) st) as [st2|e| |]; cbn [omap bind]; reflexivity.
Qed.

End Unq.
