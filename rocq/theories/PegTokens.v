(** Gaps, words, quoted strings, shell texts and arrays: from runs of the grammar
    to the languages of SpecSyntax.v. *)

From Coq Require Import String.
From Verif Require Import Bytes BytesFacts Grammar Peg PegFacts SpecSyntax PegRules.
Local Open Scope nat_scope.

Definition comments (f : list tree) : Prop := Forall (fun t => t_rule t = R_comment) f.

Lemma comments_app f g : comments f -> comments g -> comments (f ++ g).
Proof. intros A B. apply Forall_app. auto. Qed.

Ltac peg_good := first [reflexivity |
  match goal with Hq : ?q = _ \/ ?q = _ |- _ => destruct Hq; subst q; reflexivity end].
Ltac call_open H := apply call_inv in H; let f := fresh "f" in destruct H as (f & H & ->).
Ltac seq_open H Hv H1 :=
  apply seq_inv in H; [|peg_good];
  let q := fresh "q" in let s := fresh "s" in let f1 := fresh "f" in let f2 := fresh "f" in
  destruct H as (q & s & f1 & f2 & H1 & H & ->);
  let Hv1 := fresh "Hv" in pose proof (run_valid _ _ _ _ _ _ _ H1 Hv ltac:(peg_good)) as Hv1.

(** ** Gaps *)

(** A comment that runs to the end of the document *)
Definition open_lines (w : bytes) : Prop :=
  exists j l b t, w = l ++ b ++ t /\ skipped_lines j l /\ blanks b /\ comment_text t.
Definition open_gap (w : bytes) : Prop :=
  exists k g c j l b t, w = g ++ c ++ l ++ b ++ t /\ gap k g /\ continuation c /\
    skipped_lines j l /\ blanks b /\ comment_text t.

Lemma skipped_inv p s q s' f : valid_utf8 s = true ->
  run ctx0 (Rep (Alt comment_line empty_line)) p s = Done q s' f ->
  exists w, s = w ++ s' /\ q = p + length w /\ comments f /\
    (skipped_lines (length f) w \/ (s' = [] /\ open_lines w)).
Proof.
  intros Hv H.
  destruct (rep_ind ctx0 (Alt comment_line empty_line) (fun p w f s' => valid_utf8 (w ++ s') = true ->
     comments f /\ (skipped_lines (length f) w \/ (s' = [] /\ open_lines w))) eq_refl) with (3 := H)
    as (w & -> & -> & K).
  - intros p0 s0 _ _. split; [constructor|]. left. constructor.
  - clear. intros p w1 s1 f1 w2 f2 s' H -> Hne IH Hv. rewrite <- app_assoc in Hv.
    specialize (IH (run_valid _ _ _ _ _ _ _ H Hv eq_refl)). destruct IH as [Hc IH].
    apply alt_inv in H; [|reflexivity]. destruct H as [H|[_ H]].
    + apply comment_line_inv in H; [|exact Hv]. destruct H as (b & t & n & Hb & Ht & Es & Eq & Hn & ->).
      assert (Ew : w1 = b ++ t ++ n).
      { rewrite !app_assoc in Es. apply app_inv_tail in Es. rewrite <- !app_assoc in Es.
        rewrite !app_assoc in Es. apply app_inv_tail in Es. rewrite Es, <- !app_assoc. reflexivity. }
      subst w1. cbn [wrap emits ctx0 look atom negb andb app length]. split; [constructor; [reflexivity|exact Hc]|].
      destruct Hn as [Hn|[-> Hs]].
      * destruct IH as [IH|[-> (j & l & b2 & t2 & -> & Hl & Hb2 & Ht2)]].
        -- left. rewrite <- !app_assoc. constructor; assumption.
        -- right. split; [reflexivity|]. exists (S j), (b ++ t ++ n ++ l), b2, t2.
           split; [rewrite <- !app_assoc; reflexivity|]. repeat split; try assumption. constructor; assumption.
      * apply app_eq_nil in Hs. destruct Hs as [-> ->]. right. split; [reflexivity|].
        exists 0, [], b, t. rewrite !app_nil_r. repeat split; auto. constructor.
    + apply empty_line_inv in H. destruct H as (b & n & Hb & Hn & Es & Eq & ->).
      assert (Ew : w1 = b ++ n).
      { rewrite !app_assoc in Es. apply app_inv_tail in Es. rewrite <- !app_assoc in Es.
        rewrite !app_assoc in Es. apply app_inv_tail in Es. exact Es. }
      subst w1. cbn [app]. split; [exact Hc|].
      destruct IH as [IH|[-> (j & l & b2 & t2 & -> & Hl & Hb2 & Ht2)]].
      * left. rewrite <- !app_assoc. constructor; assumption.
      * right. split; [reflexivity|]. exists j, (b ++ n ++ l), b2, t2.
        split; [rewrite <- !app_assoc; reflexivity|]. repeat split; try assumption. constructor; assumption.
  - exists w. destruct (K Hv). auto.
Qed.

Lemma gap_item_inv p s q s' f : valid_utf8 s = true -> run ctx0 arg_ws_item p s = Done q s' f ->
  exists w, s = w ++ s' /\ q = p + length w /\ comments f /\ w <> [] /\
    ((exists c, w = [c] /\ is_blank c = true /\ f = []) \/
     (exists c l, w = c ++ l /\ continuation c /\
        (skipped_lines (length f) l \/ (s' = [] /\ open_lines l)))).
Proof.
  intros Hv H. unfold arg_ws_item in H. apply alt_inv in H; [|reflexivity]. destruct H as [H|[_ H]].
  - rewrite class_ws in H. destruct s as [|x s]; [discriminate|]. destruct (is_blank x) eqn:E; [|discriminate].
    injection H as <- <- <-. exists [x]. repeat split; [constructor|discriminate|]. left. eauto.
  - seq_open H Hv H1. apply continuation_inv in H1. destruct H1 as (k & Hk & -> & -> & ->).
    apply skipped_inv in H; [|exact Hv0]. destruct H as (l & -> & -> & Hc & Hl).
    exists (k ++ l). rewrite app_length, <- app_assoc. repeat split; [lia|exact Hc| |right; eauto 6].
    destruct Hk as (b & n & -> & _). discriminate.
Qed.

Lemma gap_star_inv p s q s' f : valid_utf8 s = true -> run ctx0 (Rep arg_ws_item) p s = Done q s' f ->
  exists w, s = w ++ s' /\ q = p + length w /\ comments f /\
    (gap (length f) w \/ (s' = [] /\ open_gap w)).
Proof.
  intros Hv H.
  destruct (rep_ind ctx0 arg_ws_item (fun p w f s' => valid_utf8 (w ++ s') = true ->
     comments f /\ (gap (length f) w \/ (s' = [] /\ open_gap w))) eq_refl) with (3 := H)
    as (w & -> & -> & K).
  - intros p0 s0 _ _. split; [constructor|]. left. constructor.
  - clear. intros p w1 s1 f1 w2 f2 s' H -> Hne IH Hv. rewrite <- app_assoc in Hv.
    specialize (IH (run_valid _ _ _ _ _ _ _ H Hv eq_refl)). destruct IH as [Hc IH].
    apply gap_item_inv in H; [|exact Hv]. destruct H as (w & Es & _ & Hf1 & _ & H).
    apply app_inv_tail in Es. subst w. split; [apply comments_app; assumption|].
    destruct H as [(c & -> & Hb & ->)|(c & l & -> & Hk & Hl)].
    + cbn [app]. destruct IH as [IH|[-> (k & g & c2 & j & l & b & t & -> & Hg & Hx)]].
      * left. constructor; assumption.
      * right. split; [reflexivity|]. exists k, (c :: g), c2, j, l, b, t.
        split; [reflexivity|]. split; [constructor; assumption|exact Hx].
    + rewrite app_length. destruct Hl as [Hl|[Es (j & l0 & b & t & -> & Hl & Hb & Ht)]].
      * destruct IH as [IH|[-> (k & g & c2 & j & l2 & b & t & -> & Hg & Hx)]].
        -- left. rewrite <- app_assoc. constructor; assumption.
        -- right. split; [reflexivity|]. exists (length f1 + k), (c ++ l ++ g), c2, j, l2, b, t.
           split; [rewrite <- !app_assoc; reflexivity|]. split; [constructor; assumption|exact Hx].
      * apply app_eq_nil in Es. destruct Es as [-> ->]. right. split; [reflexivity|].
        exists 0, [], c, j, l0, b, t. rewrite app_nil_r. repeat split; auto. constructor.
  - exists w. destruct (K Hv). auto.
Qed.

Lemma gap_inv p s q s' f : valid_utf8 s = true -> run ctx0 arg_ws p s = Done q s' f ->
  exists w, s = w ++ s' /\ q = p + length w /\ comments f /\ w <> [] /\
    (gap (length f) w \/ (s' = [] /\ open_gap w)).
Proof.
  intros Hv H. unfold arg_ws in H. call_open H.
  change (run ctx0 (Seq arg_ws_item (Rep arg_ws_item)) p s = Done q s' f0) in H.
  assert (Hs : run ctx0 (Rep arg_ws_item) p s = Done q s' f0).
  { rewrite run_rep by reflexivity. rewrite run_seq in H by reflexivity.
    destruct (run ctx0 arg_ws_item p s); [exact H|discriminate|discriminate]. }
  apply gap_star_inv in Hs; [|exact Hv]. destruct Hs as (w & -> & -> & Hc & Hw).
  exists w. repeat split; auto. intros ->.
  pose proof (run_strict _ _ _ _ _ _ _ H eq_refl). cbn [app] in *. lia.
Qed.

(** A gap before something *)
Lemma gap_inv_more p s q s' f : valid_utf8 s = true -> run ctx0 arg_ws p s = Done q s' f -> s' <> [] ->
  exists w, s = w ++ s' /\ q = p + length w /\ comments f /\ w <> [] /\ gap (length f) w.
Proof.
  intros Hv H Hne. apply gap_inv in H; [|exact Hv]. destruct H as (w & -> & -> & Hc & Hw & [Hg|[K _]]).
  - exists w. auto.
  - contradiction.
Qed.

Lemma gap_maybe_inv_more p s q s' f : valid_utf8 s = true -> run ctx0 arg_ws_maybe p s = Done q s' f -> s' <> [] ->
  exists w, s = w ++ s' /\ q = p + length w /\ comments f /\ gap (length f) w.
Proof.
  intros Hv H Hne. unfold arg_ws_maybe in H. call_open H.
  change (run ctx0 (Rep arg_ws_item) p s = Done q s' f0) in H.
  apply gap_star_inv in H; [|exact Hv]. destruct H as (w & -> & -> & Hc & [Hg|[K _]]).
  - exists w. auto.
  - contradiction.
Qed.

(** When a gap can be read at all *)
Definition gap_here (s : bytes) : bool :=
  match s with c :: _ => is_blank c || continues s | [] => false end.

Lemma succeeds_gap_item : succeeds arg_ws_item gap_here.
Proof.
  intros c p s Hv. unfold arg_ws_item. rewrite run_alt by reflexivity. rewrite (class_ws c p s).
  destruct s as [|x s].
  - rewrite run_seq by reflexivity. rewrite run_continuation. right. split; reflexivity.
  - cbn [gap_here]. destruct (is_blank x) eqn:Eb; [left; do 3 eexists; split; reflexivity|].
    cbn [orb]. rewrite run_seq by reflexivity. rewrite run_continuation. unfold continues.
    destruct (cont_rest (x :: s)) as [[n t]|]; [|right; split; reflexivity].
    destruct (rep_done c (Alt comment_line empty_line) (p + n) t eq_refl) as (q & s' & f & ->).
    left. do 3 eexists. split; reflexivity.
Qed.

Lemma succeeds_gap : succeeds arg_ws gap_here.
Proof.
  intros c p s Hv. unfold arg_ws. rewrite run_call. cbn [grammar fst snd rule_inner rule_outer rule_tokens].
  unfold rep1. rewrite run_seq by reflexivity.
  destruct (succeeds_gap_item c p s Hv) as [(q & s1 & f & -> & ->)|(-> & ->)]; [|right; split; reflexivity].
  destruct (rep_done c arg_ws_item q s1 eq_refl) as (q2 & s2 & f2 & ->).
  left. do 3 eexists. split; reflexivity.
Qed.

(** ** Words *)

Definition blank_here (s : bytes) : bool := match s with c :: _ => is_blank c | [] => false end.
Definition is_nil (s : bytes) : bool := match s with [] => true | _ => false end.
Definition word_stop (s : bytes) : bool := newline_here s || (is_nil s || gap_here s).

Lemma succeeds_eoi : succeeds (Call R_EOI) is_nil.
Proof.
  intros c p s _. rewrite run_call. cbn [grammar fst snd]. rewrite run_eoi.
  destruct s; [left; do 3 eexists; split; reflexivity|right; split; reflexivity].
Qed.

Lemma unless_ext e stop stop2 : (forall x t, stop (x :: t) = stop2 (x :: t)) -> matches_unless e stop ->
  matches_unless e stop2.
Proof. intros E H c p s Hv. rewrite (H c p s Hv). destruct s as [|x s]; [reflexivity|]. rewrite E. reflexivity. Qed.

Lemma word_unless :
  matches_unless (Seq (NegPred (Alt NEWLINE (Alt (Call R_EOI) arg_ws))) AnyChar) word_stop.
Proof.
  apply unless_ext with (stop := fun s => word_stop s || false); [intros x t; apply orb_false_r|].
  apply unless_not; [reflexivity| |apply unless_any].
  apply succeeds_alt; [reflexivity|apply succeeds_newline|].
  apply succeeds_alt; [reflexivity|apply succeeds_eoi|apply succeeds_gap].
Qed.

Lemma blank_ascii x : is_blank x = true -> (x < 128)%N.
Proof. unfold is_blank. intros H. bool_hyps. destruct H; bool_hyps; subst; reflexivity. Qed.

Lemma newline_ascii x : is_newline_byte x = true -> (x < 128)%N.
Proof. unfold is_newline_byte. intros H. bool_hyps. destruct H; bool_hyps; subst; reflexivity. Qed.

Lemma continues_ascii x t : continues (x :: t) = true -> x = BSLASH.
Proof. intros H. apply continues_bslash in H. destruct H as (u & E). congruence. Qed.

Lemma word_stop_ascii : stops_at_ascii word_stop.
Proof.
  intros x t H. unfold word_stop in H. cbn [newline_here is_nil gap_here] in H.
  apply orb_true_iff in H. destruct H as [H|H]; [apply newline_ascii; exact H|]. cbn [orb] in H.
  apply orb_true_iff in H. destruct H as [H|H]; [apply blank_ascii; exact H|].
  apply continues_ascii in H. subst. reflexivity.
Qed.

Lemma run_any_whitespace c p s : valid_utf8 s = true ->
  run c any_whitespace p s = match until word_stop s with
                             | [] => Fail
                             | w => Done (p + length w) (from_stop word_stop s) []
                             end.
Proof.
  intros Hv. unfold any_whitespace. rewrite run_call.
  cbn [grammar fst snd rule_inner rule_outer rule_tokens].
  rewrite (fun G => until_rep1 _ _ G word_stop_ascii word_unless c p s Hv) by reflexivity.
  destruct (until word_stop s); reflexivity.
Qed.

Lemma until_forall stop (P : N -> Prop) : (forall x t, stop (x :: t) = false -> P x) ->
  forall s, Forall P (until stop s).
Proof.
  intros H s. induction s as [|x s IH]; [constructor|]. cbn [until].
  destruct (stop (x :: s)) eqn:E; constructor; [apply (H x s E)|exact IH].
Qed.

Lemma until_word s : until word_stop s <> [] -> valid_utf8 s = true -> word (until word_stop s).
Proof.
  intros Hne Hv. split; [exact Hne|]. split; [|apply valid_until; [apply word_stop_ascii|exact Hv]].
  apply until_forall. intros x t H. unfold word_stop in H. cbn [newline_here is_nil gap_here] in H.
  apply orb_false_iff in H. destruct H as [H1 H]. cbn [orb] in H. apply orb_false_iff in H. tauto.
Qed.

Lemma any_whitespace_inv c p s q s' f : valid_utf8 s = true -> run c any_whitespace p s = Done q s' f ->
  exists w, s = w ++ s' /\ q = p + length w /\ word w /\ f = [].
Proof.
  intros Hv H. rewrite run_any_whitespace in H by exact Hv.
  pose proof (until_word s) as Hw. pose proof (until_app word_stop s) as Es.
  destruct (until word_stop s) as [|x w]; [discriminate|]. injection H as <- <- <-.
  exists (x :: w). repeat split; auto; apply Hw; auto; discriminate.
Qed.

Definition label_stop (s : bytes) : bool :=
  newline_here s || (blank_here s || match s with c :: _ => (EQUALS =? c)%N | [] => false end).

Lemma label_unless :
  matches_unless (Seq (NegPred (Alt NEWLINE (Alt ws (Str [EQUALS])))) AnyChar) label_stop.
Proof.
  apply unless_ext with (stop := fun s => label_stop s || false); [intros x t; apply orb_false_r|].
  apply unless_not; [reflexivity| |apply unless_any].
  apply succeeds_alt; [reflexivity|apply succeeds_newline|].
  apply succeeds_alt; [reflexivity|apply succeeds_class; apply class_ws|apply succeeds_class; apply class_str].
Qed.

Lemma label_stop_ascii : stops_at_ascii label_stop.
Proof.
  intros x t H. unfold label_stop in H. cbn [newline_here blank_here] in H.
  apply orb_true_iff in H. destruct H as [H|H]; [apply newline_ascii; exact H|].
  apply orb_true_iff in H. destruct H as [H|H]; [apply blank_ascii; exact H|].
  apply N.eqb_eq in H. subst. reflexivity.
Qed.

Lemma run_any_equals c p s : valid_utf8 s = true ->
  run c any_equals p s = match until label_stop s with
                         | [] => Fail
                         | w => Done (p + length w) (from_stop label_stop s) []
                         end.
Proof.
  intros Hv. unfold any_equals. rewrite run_call.
  cbn [grammar fst snd rule_inner rule_outer rule_tokens].
  rewrite (fun G => until_rep1 _ _ G label_stop_ascii label_unless c p s Hv) by reflexivity.
  destruct (until label_stop s); reflexivity.
Qed.

Lemma until_label_word s : until label_stop s <> [] -> valid_utf8 s = true -> label_word (until label_stop s).
Proof.
  intros Hne Hv. split; [exact Hne|]. split; [|apply valid_until; [apply label_stop_ascii|exact Hv]].
  apply until_forall. intros x t H. unfold label_stop in H. cbn [newline_here blank_here] in H.
  apply orb_false_iff in H. destruct H as [H1 H]. apply orb_false_iff in H. destruct H as [H2 H3].
  apply N.eqb_neq in H3. repeat split; auto.
Qed.

Lemma any_equals_inv c p s q s' f : valid_utf8 s = true -> run c any_equals p s = Done q s' f ->
  exists w, s = w ++ s' /\ q = p + length w /\ label_word w /\ f = [].
Proof.
  intros Hv H. rewrite run_any_equals in H by exact Hv.
  pose proof (until_label_word s) as Hw. pose proof (until_app label_stop s) as Es.
  destruct (until label_stop s) as [|x w]; [discriminate|]. injection H as <- <- <-.
  exists (x :: w). repeat split; auto; apply Hw; auto; discriminate.
Qed.

(** Text of a shell command up to a newline or continuation *)
Definition chunk_stop (s : bytes) : bool := newline_here s || continues s.

Lemma chunk_unless :
  matches_unless (Seq (NegPred NEWLINE) (Seq (NegPred line_continuation) AnyChar)) chunk_stop.
Proof.
  apply unless_ext with (stop := fun s => newline_here s || (continues s || false)).
  { intros x t. rewrite orb_false_r. reflexivity. }
  apply unless_not; [reflexivity|apply succeeds_newline|].
  apply unless_not; [reflexivity|apply succeeds_continuation|apply unless_any].
Qed.

Lemma chunk_stop_ascii : stops_at_ascii chunk_stop.
Proof.
  intros x t H. unfold chunk_stop in H. cbn [newline_here] in H.
  apply orb_true_iff in H. destruct H as [H|H]; [apply newline_ascii; exact H|].
  apply continues_ascii in H. subst. reflexivity.
Qed.

Lemma run_any_content c p s : valid_utf8 s = true ->
  run c (Call R_any_content) p s =
  match until chunk_stop s with
  | [] => Fail
  | w => Done (p + length w) (from_stop chunk_stop s) (wrap c R_any_content p (p + length w) [])
  end.
Proof.
  intros Hv. rewrite run_call. cbn [grammar fst snd rule_inner rule_outer rule_tokens].
  rewrite (fun G => until_rep1 _ _ G chunk_stop_ascii chunk_unless _ p s Hv) by reflexivity.
  destruct (until chunk_stop s); reflexivity.
Qed.

Lemma until_chunk s : until chunk_stop s <> [] -> valid_utf8 s = true -> chunk (until chunk_stop s).
Proof.
  intros Hne Hv. split; [exact Hne|]. split; [|apply valid_until; [apply chunk_stop_ascii|exact Hv]].
  apply until_forall. intros x t H. unfold chunk_stop in H. cbn [newline_here] in H.
  apply orb_false_iff in H. tauto.
Qed.

Lemma any_content_inv c p s q s' f : valid_utf8 s = true -> run c (Call R_any_content) p s = Done q s' f ->
  exists w, s = w ++ s' /\ q = p + length w /\ chunk w /\ f = wrap c R_any_content p q [] /\
    (s' = [] \/ newline_here s' = true \/ continues s' = true).
Proof.
  intros Hv H. rewrite run_any_content in H by exact Hv.
  pose proof (until_chunk s) as Hw. pose proof (until_app chunk_stop s) as Es.
  pose proof (from_stop_head chunk_stop s) as Hh.
  destruct (until chunk_stop s) as [|x w]; [discriminate|]. injection H as <- <- <-.
  exists (x :: w). split; [auto|]. split; [reflexivity|]. split; [apply Hw; auto; discriminate|].
  split; [reflexivity|]. destruct (from_stop chunk_stop s) as [|y t]; [left; reflexivity|right].
  unfold chunk_stop in Hh. apply orb_true_iff in Hh. exact Hh.
Qed.

(** ** Classes *)

Lemma class_alpha : matches_class ASCII_ALPHA is_alpha.
Proof. apply class_alt; [reflexivity|apply class_range|apply class_range]. Qed.

Lemma class_alnum : matches_class ASCII_ALPHANUMERIC is_alnum.
Proof.
  eapply class_ext; [|apply class_alt; [reflexivity|apply class_range|apply class_alt; [reflexivity|apply class_range|apply class_range]]].
  intros x. cbn beta. unfold is_alnum, is_alpha, is_lower, is_upper, is_digit. rewrite orb_assoc. reflexivity.
Qed.

Lemma class_word : matches_class (Alt ASCII_ALPHANUMERIC (Str [UNDER])) is_word.
Proof.
  eapply class_ext; [|apply class_alt; [reflexivity|apply class_alnum|apply class_str]].
  intros x. cbn beta. unfold is_word. rewrite (N.eqb_sym UNDER x). reflexivity.
Qed.

Lemma class_image : matches_class (Alt ASCII_ALPHANUMERIC (Alt (Str [UNDER]) (Alt (Str [DASH]) (Alt (Str [DOT])
  (Alt (Str [COLON]) (Alt (Str [SLASH]) (Alt (Str [DOLLAR]) (Alt (Str [LBRACE]) (Alt (Str [RBRACE]) (Str [AT])))))))))) image_char.
Proof.
  eapply class_ext; [|apply class_alt; [reflexivity|apply class_alnum|]; repeat (apply class_alt; [reflexivity|apply class_str|]); apply class_str].
  intros x. cbn beta. unfold image_char. cbn [existsb]. rewrite !(N.eqb_sym x), orb_false_r. reflexivity.
Qed.

Lemma class_not a b P Q : good (Seq (NegPred a) b) = true -> matches_class a P -> matches_class b Q ->
  matches_class (Seq (NegPred a) b) (fun x => negb (P x) && Q x).
Proof.
  intros G Ha Hb c p s. rewrite run_seq by exact G. rewrite run_not by (apply (good_sub _ G)).
  rewrite Ha. destruct s as [|x s]; [rewrite Hb; reflexivity|].
  destruct (P x); [reflexivity|]. rewrite Hb. cbn [negb andb]. destruct (Q x); reflexivity.
Qed.

Lemma alnum_not_blank x : is_alnum x = true -> is_blank x = false.
Proof.
  unfold is_alnum, is_alpha, is_lower, is_upper, is_digit, is_blank. intros H.
  destruct ((x =? SP)%N || (x =? TAB)%N) eqn:E; [|reflexivity]. exfalso.
  apply orb_true_iff in E. destruct E as [E|E]; apply N.eqb_eq in E; subst x; discriminate.
Qed.

Lemma class_alias : matches_class (Seq (NegPred ws) (Alt ASCII_ALPHANUMERIC (Alt (Str [UNDER]) (Str [DASH])))) alias_char.
Proof.
  eapply class_ext; [|apply class_not; [reflexivity|apply class_ws|apply class_alt; [reflexivity|apply class_alnum|apply class_alt; [reflexivity|apply class_str|apply class_str]]]].
  intros x. cbn beta. unfold alias_char. rewrite !(N.eqb_sym x), <- orb_assoc.
  destruct (is_blank x) eqn:E; [|reflexivity]. cbn [negb andb]. symmetry. apply orb_false_iff. split.
  - destruct (is_alnum x) eqn:Ea; [|reflexivity]. apply alnum_not_blank in Ea. congruence.
  - unfold is_blank in E. apply orb_true_iff in E. destruct E as [E|E]; apply N.eqb_eq in E; subst x; reflexivity.
Qed.

Lemma class_rep1_inv e P c p s q s' f : good (rep1 e) = true -> matches_class e P ->
  run c (rep1 e) p s = Done q s' f ->
  exists w, s = w ++ s' /\ q = p + length w /\ w <> [] /\ Forall (fun x => P x = true) w /\ f = [] /\
    match s' with x :: _ => P x = false | [] => True end.
Proof.
  intros G He H. rewrite (class_rep1 e P G He) in H. pose proof (take_while_all P s) as Ht.
  pose proof (take_drop P s) as Es. pose proof (drop_while_head P s) as Hd.
  destruct (take_while P s) as [|x w]; [discriminate|]. injection H as <- <- <-.
  exists (x :: w). repeat split; auto. discriminate.
Qed.

(** ** Quoted strings *)

Definition quote_stop (q : N) (s : bytes) : bool :=
  match s with
  | x :: _ => (q =? x)%N || ((BSLASH =? x)%N || ((0 =? x)%N || (31 =? x)%N))
  | [] => false
  end.

Definition plain_quoted (q : N) : expr :=
  Seq (NegPred (Alt (Str [q]) (Alt (Str [BSLASH]) (Alt (Str [0%N]) (Str [31%N]))))) AnyChar.

Lemma quote_unless q : matches_unless (plain_quoted q) (quote_stop q).
Proof.
  apply unless_ext with (stop := fun s => quote_stop q s || false); [intros x t; apply orb_false_r|].
  apply unless_not; [reflexivity| |apply unless_any].
  assert (K : matches_class (Alt (Str [q]) (Alt (Str [BSLASH]) (Alt (Str [0%N]) (Str [31%N]))))
    (fun x => (q =? x)%N || ((BSLASH =? x)%N || ((0 =? x)%N || (31 =? x)%N)))).
  { repeat (apply class_alt; [reflexivity|apply class_str|]). apply class_str. }
  apply succeeds_class in K. intros c p s Hv. exact (K c p s Hv).
Qed.

Lemma quote_stop_ascii q : (q < 128)%N -> stops_at_ascii (quote_stop q).
Proof.
  intros Hq x t H. cbn [quote_stop] in H. repeat (apply orb_true_iff in H; destruct H as [H|H]);
    apply N.eqb_eq in H; subst; [exact Hq|reflexivity..].
Qed.

Lemma until_quoted q s : Forall (fun x => x <> q /\ x <> BSLASH /\ x <> 0%N /\ x <> 31%N) (until (quote_stop q) s).
Proof.
  apply until_forall. intros x t H. cbn [quote_stop] in H.
  repeat (apply orb_false_iff in H; let K := fresh in destruct H as [K H]; apply N.eqb_neq in K).
  apply N.eqb_neq in H. repeat split; auto.
Qed.

Lemma quoted_body_plain q w v : Forall (fun x => x <> q /\ x <> BSLASH /\ x <> 0%N /\ x <> 31%N) w ->
  quoted_body q v -> quoted_body q (w ++ v).
Proof. induction 1 as [|x w (A & B & C & D) _ IH]; intros Hv; [exact Hv|]. cbn [app]. constructor; auto. Qed.

Definition is_escaped (x : N) : bool :=
  existsb (N.eqb x) [98; 116; 110; 102; 114; DQUOTE; BSLASH; SQUOTE]%N.

Lemma class_hex : matches_class ASCII_HEX_DIGIT is_hex.
Proof.
  eapply class_ext; [|apply class_alt; [reflexivity|apply class_range|apply class_alt; [reflexivity|apply class_range|apply class_range]]].
  intros x. cbn beta. unfold is_hex, is_digit. rewrite orb_assoc. reflexivity.
Qed.

Fixpoint hexes (n : nat) : expr :=
  match n with O => ASCII_HEX_DIGIT | S n' => Seq ASCII_HEX_DIGIT (hexes n') end.

Lemma hexes_inv n : good (hexes n) = true -> forall c p s q s' f, run c (hexes n) p s = Done q s' f ->
  exists w, s = w ++ s' /\ q = p + length w /\ Forall (fun x => is_hex x = true) w /\ f = [].
Proof.
  induction n as [|n IH]; intros G c p s q s' f H; cbn [hexes] in H.
  - rewrite class_hex in H. destruct s as [|x s]; [discriminate|]. destruct (is_hex x) eqn:E; [|discriminate].
    injection H as <- <- <-. exists [x]. repeat split. repeat constructor. exact E.
  - apply seq_inv in H; [|exact G]. destruct H as (q1 & s1 & f1 & f2 & H1 & H & ->).
    rewrite class_hex in H1. destruct s as [|x s]; [discriminate|]. destruct (is_hex x) eqn:E; [|discriminate].
    injection H1 as <- <- <-. apply IH in H; [|apply (good_sub _ G)]. destruct H as (w & -> & -> & Hw & ->).
    exists (x :: w). cbn [app length]. repeat split; [lia|]. constructor; assumption.
Qed.

Lemma unicode_inv c p s q s' f : run c (Call R_unicode) p s = Done q s' f ->
  exists x w, s = x :: w ++ s' /\ q = p + 1 + length w /\ (x = 117%N \/ x = 85%N) /\
    Forall (fun x => is_hex x = true) w.
Proof.
  intros H. call_open H. cbn [grammar fst snd] in H. apply alt_inv in H; [|reflexivity].
  destruct H as [H|[_ H]]; (apply seq_inv in H; [|reflexivity]);
    destruct H as (q1 & s1 & f1 & f2 & H1 & H & ->); apply str_inv in H1; destruct H1 as (-> & -> & ->);
    [apply (hexes_inv 3) in H; [|reflexivity]|apply (hexes_inv 7) in H; [|reflexivity]];
    destruct H as (w & -> & -> & Hw & ->); do 2 eexists; repeat split; eauto.
Qed.

(** What an escape takes: the backslash alone, or with it a character that is not
    0 or 31 and some plain ones. *)
Lemma escape_inv c p s q s' f : run c (Call R_escape) p s = Done q s' f ->
  exists w, s = BSLASH :: w ++ s' /\ q = p + 1 + length w /\
    ((w = [] /\ match s' with x :: _ => is_escaped x = false | [] => True end) \/
     (exists x u, w = x :: u /\ x <> 0%N /\ x <> 31%N /\
        Forall (fun y => is_hex y = true \/ y = LF) u)).
Proof.
  intros H. call_open H. cbn [grammar fst snd] in H.
  apply seq_inv in H; [|reflexivity]. destruct H as (q1 & s1 & f1 & f2 & H1 & H & ->).
  apply str_inv in H1. destruct H1 as (-> & -> & ->). cbn [length app].
  apply opt_inv in H; [|reflexivity]. destruct H as [H|(Hf & -> & -> & ->)].
  - do 8 (apply alt_inv in H; [|reflexivity]; destruct H as [H|[_ H]];
      [apply str_inv in H; destruct H as (-> & -> & ->); eexists [_]; split; [reflexivity|];
       split; [reflexivity|]; right; do 2 eexists; split; [reflexivity|];
       split; [discriminate|]; split; [discriminate|constructor]|]).
    apply alt_inv in H; [|reflexivity]. destruct H as [H|[_ H]].
    + apply unicode_inv in H. destruct H as (x & w & -> & -> & Hx & Hw).
      exists (x :: w). split; [reflexivity|]. split; [cbn [length]; lia|]. right. exists x, w.
      split; [reflexivity|]. split; [destruct Hx; subst; discriminate|]. split; [destruct Hx; subst; discriminate|].
      eapply Forall_impl; [|exact Hw]. auto.
    + apply newline_inv in H. destruct H as (n & Hn & -> & -> & ->). exists n. repeat split. right.
      destruct Hn; do 2 eexists; (split; [reflexivity|]; split; [discriminate|]; split; [discriminate|]);
        repeat (constructor; try (right; reflexivity)).
  - exists []. split; [reflexivity|]. split; [cbn [length]; lia|]. left. split; [reflexivity|].
    destruct s1 as [|x t]; [exact I|].
    do 8 (rewrite run_alt in Hf by reflexivity; rewrite class_str in Hf;
      match goal with E : context [if (?a =? x)%N then _ else _] |- _ => destruct (a =? x)%N eqn:?; [discriminate|] end).
    unfold is_escaped. cbn [existsb]. rewrite !(N.eqb_sym x).
    repeat match goal with E : (_ =? x)%N = false |- _ => rewrite E; clear E end. reflexivity.
Qed.

Lemma hex_plain q x : (q = DQUOTE \/ q = SQUOTE) -> is_hex x = true \/ x = LF ->
  x <> q /\ x <> BSLASH /\ x <> 0%N /\ x <> 31%N.
Proof.
  intros Hq [H| ->]; [|destruct Hq; subst; repeat split; discriminate].
  unfold is_hex, is_digit in H. apply orb_true_iff in H. 
  repeat split; intros ->; destruct Hq; subst; vm_compute in H; destruct H; discriminate.
Qed.

Definition inner_rule (q : N) : rule := if (q =? DQUOTE)%N then R_inner else R_single_quoted_inner.

Lemma inner_rule_body q : (q = DQUOTE \/ q = SQUOTE) -> grammar (inner_rule q) =
  (AtomicRule, Seq (Rep (plain_quoted q)) (Opt (Seq (Call R_escape) (Call (inner_rule q))))).
Proof. intros [-> | ->]; reflexivity. Qed.

Lemma inner_inv quo : (quo = DQUOTE \/ quo = SQUOTE) -> forall n s, length s <= n -> forall c p q s' f,
  valid_utf8 s = true -> run c (Call (inner_rule quo)) p s = Done q s' f ->
  exists w, s = w ++ s' /\ q = p + length w /\
    (quoted_body quo w \/ match s' with x :: _ => x <> quo | [] => True end).
Proof.
  intros Hq. assert (Ha : (quo < 128)%N) by (destruct Hq; subst; reflexivity).
  induction n as [|n IH]; intros s Hl c p q s' f Hv H.
  { assert (s = []) by (destruct s; [reflexivity|cbn in Hl; lia]). subst s.
    destruct (run_consumes _ _ _ _ _ _ _ H) as (w & E & ->). symmetry in E. apply app_eq_nil in E. destruct E as [-> ->].
    exists []. repeat split. left. constructor. }
  call_open H. rewrite (inner_rule_body quo Hq) in H. cbn [fst snd] in H. seq_open H Hv H1.
  rewrite (until_rep (plain_quoted quo) _ eq_refl (quote_stop_ascii quo Ha) (quote_unless quo)) in H1 by exact Hv.
  injection H1 as <- <- <-. pose proof (until_app (quote_stop quo) s) as Es.
  pose proof (until_quoted quo s) as Hw. set (w := until (quote_stop quo) s) in *.
  set (t := from_stop (quote_stop quo) s) in *. clearbody w t. subst s.
  apply opt_inv in H; [|peg_good]. destruct H as [H|(_ & -> & -> & ->)].
  - seq_open H Hv0 H1. apply escape_inv in H1. destruct H1 as (e & -> & -> & He).
    assert (Hl2 : length s <= n).
    { rewrite app_length in Hl. cbn [length] in Hl. rewrite app_length in Hl. lia. }
    pose proof H as Hrun.
    apply (IH s Hl2) in H; [|exact Hv1]. destruct H as (v & -> & -> & Hb).
    exists (w ++ BSLASH :: e ++ v). split; [rewrite <- !app_assoc; cbn [app]; rewrite <- app_assoc; reflexivity|].
    split; [rewrite !app_length; cbn [length]; rewrite app_length; lia|].
    destruct Hb as [Hb|Hb]; [|right; exact Hb].
    destruct He as [[-> He]|(x & u & -> & Hx0 & Hx31 & Hu)].
    + destruct v as [|x v].
      * right. cbn [app] in He. destruct s' as [|x s']; [exact I|]. intros ->.
        destruct Hq; subst quo; discriminate.
      * left. apply quoted_body_plain; [exact Hw|]. cbn [app] in He |- *.
        inversion Hb; subst; [constructor; assumption|discriminate].
    + left. apply quoted_body_plain; [exact Hw|]. cbn [app]. constructor; [assumption..|].
      apply quoted_body_plain; [|exact Hb]. eapply Forall_impl; [|exact Hu].
      intros y Hy. apply (hex_plain quo y Hq Hy).
  - exists w. repeat split. left. rewrite <- (app_nil_r w). apply quoted_body_plain; [exact Hw|constructor].
Qed.

Definition quoted_rule (q : N) : rule := if (q =? DQUOTE)%N then R_double_quoted_string else R_single_quoted_string.

Lemma quoted_rule_body q : (q = DQUOTE \/ q = SQUOTE) -> grammar (quoted_rule q) =
  (AtomicRule, Seq (Str [q]) (Seq (Call (inner_rule q)) (Str [q]))).
Proof. intros [-> | ->]; reflexivity. Qed.

Lemma quoted_rule_inv quo c p s q s' f : (quo = DQUOTE \/ quo = SQUOTE) -> valid_utf8 s = true ->
  run c (Call (quoted_rule quo)) p s = Done q s' f ->
  exists w, s = w ++ s' /\ q = p + length w /\ quoted_text w.
Proof.
  intros Hq Hv H. call_open H. rewrite (quoted_rule_body quo Hq) in H. cbn [fst snd] in H.
  apply seq_inv in H; [|destruct Hq; subst; reflexivity]. destruct H as (q1 & s1 & f1 & f2 & H1 & H & ->).
  apply str_inv in H1. destruct H1 as (-> & -> & ->). cbn [app] in Hv.
  rewrite valid_utf8_cons_ascii in Hv by (destruct Hq; subst; reflexivity).
  apply seq_inv in H; [|destruct Hq; subst; reflexivity]. destruct H as (q2 & s2 & f3 & f4 & H1 & H & ->).
  apply (inner_inv quo Hq (length s1) s1 (le_n _)) in H1; [|exact Hv]. destruct H1 as (w & -> & -> & Hb).
  apply str_inv in H. destruct H as (-> & -> & ->). exists (quo :: w ++ [quo]).
  split; [cbn [app]; rewrite <- app_assoc; reflexivity|].
  split; [cbn [length]; rewrite app_length; cbn [length]; lia|].
  exists quo, w. split; [exact Hq|]. split; [reflexivity|]. split.
  - destruct Hb as [Hb|Hb]; [exact Hb|]. cbn [app] in Hb. congruence.
  - apply valid_utf8_cut with (a := w) (b := [quo] ++ s') in Hv; [apply Hv|reflexivity|].
    cbn [app]. destruct Hq; subst; reflexivity.
Qed.

Lemma string_inv c p s q s' f : valid_utf8 s = true -> look c = false -> run c string_ p s = Done q s' f ->
  exists w ch, s = w ++ s' /\ q = p + length w /\ quoted_text w /\ f = [Node R_string p q ch].
Proof.
  intros Hv Hc H. unfold string_ in H. call_open H. cbn [grammar fst snd] in H.
  apply alt_inv in H; [|reflexivity]. destruct H as [H|[_ H]].
  - apply (quoted_rule_inv SQUOTE) in H; [|auto|exact Hv]. destruct H as (w & -> & -> & Hw).
    exists w, f0. repeat split; auto. cbn. unfold wrap, emits. cbn. rewrite Hc. reflexivity.
  - apply (quoted_rule_inv DQUOTE) in H; [|auto|exact Hv]. destruct H as (w & -> & -> & Hw).
    exists w, f0. repeat split; auto. cbn. unfold wrap, emits. cbn. rewrite Hc. reflexivity.
Qed.
