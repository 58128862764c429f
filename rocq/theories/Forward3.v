(** From texts to runs of the grammar, continued: the instructions. *)

From Coq Require Import String.
From Verif Require Import Bytes BytesFacts Grammar Peg Result Ast Splicer Image Convert Dockerfile
  PegFacts SpecImage ImageFacts SpecSyntax SpecClear PegRules PegTokens PegQuoted Sound SoundRules SoundInstr Forward Forward2.
Local Open Scope nat_scope.

(** ** Solid characters *)

Ltac class_solid H :=
  repeat split;
  [match goal with |- is_blank ?c = false => let E := fresh in destruct (is_blank c) eqn:E; [|reflexivity];
     unfold is_blank in E; apply orb_true_iff in E; rewrite !N.eqb_eq in E; destruct E; subst; vm_compute in H; discriminate end
  |match goal with |- is_newline_byte ?c = false => let E := fresh in destruct (is_newline_byte c) eqn:E; [|reflexivity];
     unfold is_newline_byte in E; apply orb_true_iff in E; rewrite !N.eqb_eq in E; destruct E; subst; vm_compute in H; discriminate end
  |intros ->; vm_compute in H; discriminate
  |intros ->; vm_compute in H; discriminate].

Lemma alpha_solid c : is_alpha c = true -> solid c.
Proof. intros H. class_solid H. Qed.
Lemma word_solid c : is_word c = true -> solid c.
Proof. intros H. class_solid H. Qed.
Lemma image_solid c : image_char c = true -> solid c.
Proof. intros H. class_solid H. Qed.
Lemma alias_solid c : alias_char c = true -> solid c.
Proof. intros H. class_solid H. Qed.

Lemma class_stops (P : N -> bool) w s : (forall c, P c = true -> solid c) -> w <> [] ->
  Forall (fun c => P c = true) w -> gap_stops (w ++ s).
Proof. intros HP Hne Hw. destruct Hw as [|x w Hx Hw]; [congruence|]. cbn. apply HP. exact Hx. Qed.

Lemma solid_stops w s : begins_solid w -> gap_stops (w ++ s).
Proof. intros (c & t & -> & Hc). exact Hc. Qed.

(** ** Keywords *)

Lemma match_insens_fwd pat w s : to_lower w = to_lower pat -> match_insens pat (w ++ s) = Some s.
Proof. intros H. apply match_insens_app. exists w. auto. Qed.

Lemma keyword_len k kw : keyword k kw -> length kw = length (bs k).
Proof. unfold keyword. intros <-. unfold to_lower. rewrite map_length. reflexivity. Qed.

Lemma keyword_fwd k kw s c p : keyword k kw -> to_lower (bs k) = bs k ->
  run c (Insens (bs k)) p (kw ++ s) = Done (p + length kw) s [].
Proof.
  intros Hk Hl. rewrite run_insens, match_insens_fwd by (unfold keyword in Hk; congruence).
  rewrite (keyword_len k kw Hk). reflexivity.
Qed.

Fixpoint clash (a b : bytes) : bool :=
  match a, b with
  | x :: a', y :: b' => negb (x =? y)%N || clash a' b'
  | _, _ => false
  end.

Lemma clash_none pat w s : clash (to_lower pat) (to_lower w) = true -> match_insens pat (w ++ s) = None.
Proof.
  revert w. induction pat as [|x pat IH]; intros w H; [discriminate|]. destruct w as [|y w]; [discriminate|].
  cbn [app match_insens]. cbn [to_lower map clash] in H. unfold eq_icase.
  destruct (lower_byte x =? lower_byte y)%N; [apply IH; exact H|reflexivity].
Qed.

Lemma lower_is_alpha c : is_alpha (lower_byte c) = is_alpha c.
Proof.
  unfold lower_byte. destruct (is_upper c) eqn:E; [|reflexivity]. unfold is_alpha. rewrite E, orb_true_r.
  unfold is_upper, is_lower, in_range in *. apply andb_true_iff in E. rewrite !N.leb_le in E.
  apply orb_true_iff. left. apply andb_true_iff. rewrite !N.leb_le. lia.
Qed.

Lemma keyword_solid k kw s : keyword k kw -> bs k <> [] -> Forall (fun c => is_alpha c = true) (bs k) -> gap_stops (kw ++ s).
Proof.
  unfold keyword. intros E Hne H. rewrite <- E in *. destruct kw as [|x kw]; [contradiction Hne; reflexivity|].
  cbn [app]. apply alpha_solid. cbn [to_lower map] in H. inversion H; subst. rewrite <- lower_is_alpha. assumption.
Qed.

Lemma ascii_valid w s : Forall (fun c => (c < 128)%N) w -> valid_utf8 (w ++ s) = valid_utf8 s.
Proof. induction 1 as [|x w Hx Hw IH]; [reflexivity|]. cbn [app]. rewrite valid_utf8_cons_ascii by exact Hx. exact IH. Qed.

Lemma alpha_ascii c : is_alpha c = true -> (c < 128)%N.
Proof.
  unfold is_alpha, is_lower, is_upper, in_range. rewrite orb_true_iff, !andb_true_iff, !N.leb_le. lia.
Qed.
Lemma alnum_ascii c : is_alnum c = true -> (c < 128)%N.
Proof.
  unfold is_alnum, is_digit, in_range. rewrite orb_true_iff, !andb_true_iff, !N.leb_le.
  intros [H|H]; [apply alpha_ascii; exact H|lia].
Qed.
Lemma word_ascii c : is_word c = true -> (c < 128)%N.
Proof.
  unfold is_word. rewrite orb_true_iff, N.eqb_eq. intros [H|H]; [apply alnum_ascii; exact H|subst; reflexivity].
Qed.
Lemma alias_ascii c : alias_char c = true -> (c < 128)%N.
Proof.
  unfold alias_char. rewrite !orb_true_iff, !N.eqb_eq. intros [[H|H]|H]; [apply alnum_ascii; exact H|subst; reflexivity..].
Qed.
Lemma image_ascii c : image_char c = true -> (c < 128)%N.
Proof.
  unfold image_char. rewrite orb_true_iff. intros [H|H]; [apply alnum_ascii; exact H|].
  apply existsb_exists in H. destruct H as (y & Hy & E). apply N.eqb_eq in E. subst y.
  repeat destruct Hy as [<-|Hy]; try reflexivity. destruct Hy.
Qed.

Lemma class_valid (P : N -> bool) w s : (forall c, P c = true -> (c < 128)%N) -> Forall (fun c => P c = true) w ->
  valid_utf8 (w ++ s) = valid_utf8 s.
Proof. intros HP H. apply ascii_valid. revert H. apply Forall_impl. exact HP. Qed.

Lemma keyword_valid k kw s : keyword k kw -> Forall (fun c => is_alpha c = true) (bs k) -> valid_utf8 (kw ++ s) = valid_utf8 s.
Proof.
  unfold keyword. intros E H. apply (class_valid is_alpha); [apply alpha_ascii|]. rewrite <- E in H. clear E.
  induction kw as [|x kw IH]; [constructor|]. cbn [to_lower map] in H. inversion H; subst.
  constructor; [rewrite <- lower_is_alpha; assumption|apply IH; assumption].
Qed.

Lemma word_valid w s : word w -> valid_utf8 (w ++ s) = valid_utf8 s.
Proof. intros (_ & _ & H). apply valid_utf8_app. exact H. Qed.
Lemma label_word_valid w s : label_word w -> valid_utf8 (w ++ s) = valid_utf8 s.
Proof. intros (_ & _ & H). apply valid_utf8_app. exact H. Qed.
Lemma chunk_valid w s : chunk w -> valid_utf8 (w ++ s) = valid_utf8 s.
Proof. intros (_ & _ & H). apply valid_utf8_app. exact H. Qed.

(** ** The end of an instruction: blanks, and the end of the line *)

Definition closed_end (s : bytes) : Prop := exists b t, s = b ++ t /\ blanks b /\ at_line_end t.

Lemma at_line_end_closed s : at_line_end s -> closed_end s.
Proof. intros H. exists [], s. split; [reflexivity|]. split; [constructor|exact H]. Qed.

Lemma closed_word_end s : closed_end s -> word_end s.
Proof. intros (b & t & -> & Hb & Ht). apply blanks_line_word; assumption. Qed.

Lemma closed_head s : closed_end s -> match s with x :: _ => is_blank x = true \/ is_newline_byte x = true | [] => True end.
Proof.
  intros (b & t & -> & Hb & Ht). destruct Hb as [|x b Hx Hb]; [|left; exact Hx]. cbn [app].
  destruct Ht as [-> |Ht]; [exact I|]. destruct t as [|x t]; [exact I|]. right. exact Ht.
Qed.

Lemma closed_class (P : N -> bool) s : closed_end s -> (forall c, P c = true -> solid c) ->
  match s with x :: _ => P x = false | [] => True end.
Proof.
  intros H HP. apply closed_head in H. destruct s as [|x s]; [exact I|]. destruct (P x) eqn:E; [|reflexivity].
  apply HP in E. destruct E as (E1 & E2 & _). destruct H; congruence.
Qed.

Lemma gap_class (P : N -> bool) k g s : gap k g -> g <> [] -> (forall c, P c = true -> solid c) ->
  match g ++ s with x :: _ => P x = false | [] => True end.
Proof.
  intros Hg Hne HP. apply gap_head in Hg. destruct g as [|x g]; [congruence|]. cbn [app].
  destruct (P x) eqn:E; [|reflexivity]. apply HP in E. destruct E as (E1 & E2 & E3 & E4). destruct Hg; congruence.
Qed.

Lemma line_end_valid b t : blanks b -> valid_utf8 (b ++ t) = true -> valid_utf8 t = true.
Proof. intros Hb H. rewrite valid_blanks in H by exact Hb. exact H. Qed.

Lemma closed_gap c p s : closed_end s -> valid_utf8 s = true ->
  run c arg_ws p s = Fail \/ exists q t, run c arg_ws p s = Done q t [] /\ at_line_end t /\ valid_utf8 t = true.
Proof.
  intros (b & t & -> & Hb & Ht) Hv. pose proof (line_end_valid b t Hb Hv) as Hv1. destruct b as [|x b].
  - left. cbn [app]. apply gap_fails; [|exact Hv1]. destruct Ht as [-> |Ht]; [reflexivity|].
    destruct t as [|x t]; [reflexivity|]. cbn in Ht. cbn [gap_here].
    destruct (is_blank x) eqn:E.
    + unfold is_newline_byte in Ht. unfold is_blank in E. apply orb_true_iff in E. rewrite !N.eqb_eq in E. destruct E; subst; discriminate.
    + destruct (continues (x :: t)) eqn:E2; [|reflexivity]. apply continues_ascii in E2. subst. discriminate.
  - right. eexists _, t. split; [apply blank_gap_fwd; [exact Hb|discriminate|exact Ht|exact Hv1]|]. auto.
Qed.

(** Nothing can follow after a gap at the end of an instruction. *)
Lemma closed_seq_fails c e p s : good (Seq arg_ws e) = true -> closed_end s -> valid_utf8 s = true ->
  (forall q t, at_line_end t -> valid_utf8 t = true -> run c e q t = Fail) -> run c (Seq arg_ws e) p s = Fail.
Proof.
  intros G Hs Hv He. rewrite run_seq by exact G.
  destruct (closed_gap c p s Hs Hv) as [-> |(q & t & -> & Ht & Hvt)]; [reflexivity|]. rewrite He by assumption. reflexivity.
Qed.

Lemma insens_fails_end c p pat t : Forall (fun c => is_alpha c = true) pat -> pat <> [] -> at_line_end t ->
  run c (Insens pat) p t = Fail.
Proof.
  intros Hp Hne Ht. rewrite run_insens. destruct Hp as [|x pat Hx Hp]; [congruence|].
  destruct Ht as [-> |Ht]; [reflexivity|]. destruct t as [|y t]; [reflexivity|]. cbn [match_insens].
  destruct (eq_icase x y) eqn:E; [|reflexivity]. exfalso. unfold eq_icase in E. apply N.eqb_eq in E.
  rewrite <- lower_is_alpha, E, lower_is_alpha in Hx. apply alpha_solid in Hx. destruct Hx as (_ & Hx & _). cbn in Ht. congruence.
Qed.

Section Instr.
Variable unq : bytes -> option bytes.
Variable src : bytes.
Notation pos := (pos src).
Notation from_step := (from_step unq src).
Notation arg_step := (arg_step unq src).
Notation label_step := (label_step unq src).
Notation labels_step := (labels_step unq src).
Notation copy_step := (copy_step unq src).
Notation pair_step := (pair_step unq src).
Notation single_step := (single_step unq src).
Notation pairs_step := (pairs_step unq src).

(** ** Things, each after a gap *)
Section Spaced.
Context {A S : Type}.
Variable r : rule.
Variable at1 : nat -> bytes -> A -> Prop.
Variable conv : tree -> outcome A.
Variable step : S -> tree -> outcome S.
Variable add : S -> A -> S.
Hypothesis r_good : good (Rep (Seq arg_ws (Call r))) = true.
Hypothesis r_good2 : good (Rep (Seq arg_ws (Opt (Call r)))) = true.
Hypothesis conv_fwd : forall p w x s, at1 p w x -> word_end s -> valid_utf8 (w ++ s) = true -> pos p (w ++ s) ->
  exists t, run ctx0 (Call r) p (w ++ s) = Done (p + length w) s [t] /\ t_rule t = r /\ conv t = Ok x.
Hypothesis at1_solid : forall p w x s, at1 p w x -> gap_stops (w ++ s).
Hypothesis at1_valid : forall p w x s, at1 p w x -> valid_utf8 (w ++ s) = valid_utf8 s.
Hypothesis step_item : forall st t, t_rule t = r -> step st t = bind (conv t) (fun x => Ok (add st x)).
Hypothesis step_comment : skips_comments step.

Lemma spaced_valid p w l s : spaced at1 p w l -> valid_utf8 (w ++ s) = valid_utf8 s.
Proof.
  induction 1 as [|p k g w x w2 l Hg Hne Hx Hl IH]; [reflexivity|]. rewrite <- !app_assoc.
  rewrite (valid_gap _ _ _ Hg), (at1_valid _ _ _ _ Hx). exact IH.
Qed.

Lemma spaced_word_end p w l s : spaced at1 p w l -> word_end s -> word_end (w ++ s).
Proof.
  intros H Hs. destruct H as [|p k g w x w2 l Hg Hne Hx Hl]; [exact Hs|]. rewrite <- app_assoc.
  apply (gap_word_end k); assumption.
Qed.

Lemma item_fwd p k g w x s : gap k g -> g <> [] -> at1 (p + length g) w x -> word_end s ->
  valid_utf8 s = true -> pos p (g ++ w ++ s) ->
  exists f, run ctx0 (Seq arg_ws (Call r)) p (g ++ w ++ s) = Done (p + length g + length w) s f /\
    forall st, for_each step f st = Ok (add st x).
Proof.
  intros Hg Hne Hx Hs Hv Hp. rewrite <- (at1_valid _ _ _ _ Hx) in Hv. rewrite run_seq by apply (good_sub _ r_good).
  destruct (gap_fwd k g (w ++ s) p Hg Hne (at1_solid _ _ _ _ Hx) Hv) as (f1 & -> & Hc & _).
  destruct (conv_fwd _ _ _ s Hx Hs Hv (pos_app _ _ _ _ Hp)) as (t & -> & Ht & Ec).
  eexists. split; [reflexivity|]. intros st. rewrite for_each_gap by assumption. cbn [for_each].
  rewrite step_item, Ec by exact Ht. reflexivity.
Qed.

Lemma spaced_fwd p w l : spaced at1 p w l -> forall s, word_end s -> valid_utf8 s = true -> pos p (w ++ s) ->
  run ctx0 (Seq arg_ws (Call r)) (p + length w) s = Fail ->
  exists f, run ctx0 (Rep (Seq arg_ws (Call r))) p (w ++ s) = Done (p + length w) s f /\
    forall st, for_each step f st = Ok (fold_left add l st).
Proof.
  induction 1 as [p|p k g w x w2 l Hg Hne Hx Hl IH]; intros s Hs Hv Hp Hf.
  - cbn [app length] in *. rewrite Nat.add_0_r in *. rewrite run_rep by exact r_good. rewrite Hf. exists []. auto.
  - rewrite <- !app_assoc in *. rewrite run_rep by exact r_good.
    assert (Hv2 : valid_utf8 (w2 ++ s) = true) by (rewrite (spaced_valid _ _ _ _ Hl); exact Hv).
    destruct (item_fwd p k g w x (w2 ++ s) Hg Hne Hx (spaced_word_end _ _ _ _ Hl Hs) Hv2 Hp) as (f1 & -> & H1).
    destruct (IH s Hs Hv (pos_app _ _ _ _ (pos_app _ _ _ _ Hp))) as (f2 & -> & H2).
    { rewrite !app_length in Hf. rewrite !Nat.add_assoc in Hf. exact Hf. }
    eexists. split; [rewrite !app_length, !Nat.add_assoc; reflexivity|].
    intros st. rewrite for_each_app, H1. cbn [bind]. rewrite H2. reflexivity.
Qed.

(** ... and blanks after the last *)
Lemma spaced_blanks_fwd p w l : spaced at1 p w l -> forall b s, blanks b -> at_line_end s -> valid_utf8 s = true ->
  pos p (w ++ b ++ s) -> (forall q, run ctx0 (Call r) q s = Fail) ->
  exists f, run ctx0 (Rep (Seq arg_ws (Opt (Call r)))) p (w ++ b ++ s) = Done (p + length w + length b) s f /\
    forall st, for_each step f st = Ok (fold_left add l st).
Proof.
  pose proof (proj1 (good_sub _ r_good2)) as G1. pose proof (proj2 (good_sub _ G1)) as G2.
  induction 1 as [p|p k g w x w2 l Hg Hne Hx Hl IH]; intros b s Hb Hs Hv Hp Hf.
  - cbn [app length] in *. rewrite Nat.add_0_r.
    assert (E0 : forall q, run ctx0 (Rep (Seq arg_ws (Opt (Call r)))) q s = Done q s []).
    { intros q. rewrite run_rep by exact r_good2. rewrite run_seq by exact G1.
      destruct (closed_gap ctx0 q s (at_line_end_closed s Hs) Hv) as [-> |(q2 & t & E & _ & _)]; [reflexivity|].
      exfalso. pose proof (run_strict _ _ _ _ _ _ _ E eq_refl). destruct (gap_inv _ _ _ _ _ Hv E) as (g & Es & _ & _ & Hne & Hg).
      assert (K : match g with x :: _ => is_blank x = true \/ x = BSLASH | [] => True end).
      { destruct Hg as [Hg|[_ (k & g0 & c & j & l & b0 & t0 & -> & Hg & Hc & _)]]; [apply (gap_head _ _ Hg)|].
        apply gap_head in Hg. destruct g0 as [|y g0]; [|exact Hg]. destruct Hc as (b1 & n & -> & _). right. reflexivity. }
      destruct g as [|y g]; [congruence|]. rewrite Es in Hs. destruct Hs as [Hs|Hs]; [discriminate|]. cbn in Hs.
      destruct K as [K|K]; [|subst; discriminate]. unfold is_blank in K. apply orb_true_iff in K. rewrite !N.eqb_eq in K.
      destruct K; subst; discriminate. }
    destruct b as [|y b]; [exists []; cbn [app length]; rewrite E0, Nat.add_0_r; auto|].
    rewrite run_rep by exact r_good2. rewrite run_seq by exact G1. rewrite blank_gap_fwd by (assumption || discriminate).
    rewrite run_opt by exact G2. rewrite Hf, E0. exists []. auto.
  - rewrite <- !app_assoc in *. rewrite run_rep by exact r_good2.
    assert (Hvb : valid_utf8 (b ++ s) = true) by (rewrite valid_blanks by exact Hb; exact Hv).
    assert (Hv2 : valid_utf8 (w2 ++ b ++ s) = true) by (rewrite (spaced_valid _ _ _ _ Hl); exact Hvb).
    assert (Hend : word_end (w2 ++ b ++ s)).
    { apply (spaced_word_end _ _ _ _ Hl). apply blanks_line_word; assumption. }
    destruct (item_fwd p k g w x (w2 ++ b ++ s) Hg Hne Hx Hend Hv2 Hp) as (f1 & E1 & H1).
    rewrite run_seq in E1 by apply (good_sub _ r_good). rewrite run_seq by exact G1.
    destruct (run ctx0 arg_ws p (g ++ w ++ w2 ++ b ++ s)) as [q1 s1 f0| |]; try discriminate.
    rewrite run_opt by exact G2. destruct (run ctx0 (Call r) q1 s1) as [q2 s2 f3| |]; try discriminate.
    injection E1 as -> -> E1.
    destruct (IH b s Hb Hs Hv (pos_app _ _ _ _ (pos_app _ _ _ _ Hp)) Hf) as (f2 & -> & H2).
    eexists. split; [rewrite !app_length, !Nat.add_assoc; reflexivity|].
    intros st. rewrite E1, for_each_app, H1. cbn [bind]. rewrite H2. reflexivity.
Qed.
End Spaced.

(** ** Rules that are words *)

Lemma token_fwd r p s q s' f : fst (grammar r) <> Silent ->
  run (rule_inner (fst (grammar r)) ctx0) (snd (grammar r)) p s = Done q s' f ->
  run ctx0 (Call r) p s = Done q s' [Node r p q f].
Proof. intros Hk H. rewrite run_call, H. destruct (fst (grammar r)); [reflexivity|congruence|reflexivity|reflexivity]. Qed.

Lemma letters_fwd r p w s : grammar r = (AtomicRule, rep1 ASCII_ALPHA) -> letters w ->
  (match s with x :: _ => is_alpha x = false | [] => True end) ->
  run ctx0 (Call r) p (w ++ s) = Done (p + length w) s [Node r p (p + length w) []].
Proof.
  intros Hr [Hne Hw] Hs. apply token_fwd; rewrite Hr; [discriminate|]. cbn [fst snd].
  apply (class_rep1_fwd _ is_alpha); auto. apply class_alpha.
Qed.

Lemma word_rule_fwd r k p w s : grammar r = (k, any_whitespace) -> k <> Silent -> word w -> ~ ends_in_backslash w ->
  word_end s -> valid_utf8 (w ++ s) = true ->
  run ctx0 (Call r) p (w ++ s) = Done (p + length w) s [Node r p (p + length w) []].
Proof. intros Hr Hk Hw Hb Hs Hv. apply token_fwd; rewrite Hr; [exact Hk|]. cbn [fst snd]. apply word_fwd; assumption. Qed.

Lemma label_rule_fwd r k p w s : grammar r = (k, any_equals) -> k <> Silent -> label_word w -> label_end s ->
  valid_utf8 (w ++ s) = true ->
  run ctx0 (Call r) p (w ++ s) = Done (p + length w) s [Node r p (p + length w) []].
Proof. intros Hr Hk Hw Hs Hv. apply token_fwd; rewrite Hr; [exact Hk|]. cbn [fst snd]. apply label_word_fwd; assumption. Qed.

Lemma quoted_token_fwd r k c p w s : grammar r = (k, string_) -> (k = CompoundRule \/ (k = Normal /\ c = ctx0)) -> look c = false -> quoted_text w ->
  valid_utf8 (w ++ s) = true ->
  exists ch, run c (Call r) p (w ++ s) = Done (p + length w) s [Node r p (p + length w) ch].
Proof.
  intros Hr Hk Hc Hw Hv. rewrite run_call, Hr. cbn [fst snd].
  destruct Hk as [-> |[-> ->]].
  - destruct (string_fwd (rule_inner CompoundRule c) p w s Hc Hw Hv) as (ch & ->). eexists. unfold rule_tokens, wrap. cbn. rewrite ?Hc. reflexivity.
  - destruct (string_fwd (rule_inner Normal ctx0) p w s eq_refl Hw Hv) as (ch & ->). eexists. reflexivity.
Qed.

Lemma quoted_token_fails r k c p s : grammar r = (k, string_) -> ~ begins_with_quote s -> run c (Call r) p s = Fail.
Proof. intros Hr Hs. rewrite run_call, Hr. cbn [fst snd]. rewrite string_fails by exact Hs. reflexivity. Qed.

(** ** Flags *)

Lemma flag_run r rn rv p w x s :
  grammar r = (Normal, Seq (Str [DASH; DASH]) (Seq (Call rn) (Seq (Str [EQUALS]) (Call rv)))) ->
  good (Seq (Str [DASH; DASH]) (Seq (Call rn) (Seq (Str [EQUALS]) (Call rv)))) = true ->
  grammar rn = (AtomicRule, rep1 ASCII_ALPHA) -> grammar rv = (AtomicRule, any_whitespace) ->
  clear_flag_at unq p w x -> word_end s -> valid_utf8 (w ++ s) = true -> pos p (w ++ s) ->
  exists t1 t2, run ctx0 (Call r) p (w ++ s) = Done (p + length w) s [Node r p (p + length w) [t1; t2]] /\
    t_rule t1 = rn /\ t_rule t2 = rv /\
    exists name value, parse_string unq src t1 = Ok name /\ parse_string unq src t2 = Ok value /\
      x = Flag (at_ p w) name value.
Proof.
  intros Hr G Hrn Hrv [(name & value & v & -> & Hn & Hv & Hx & ->) Hb] Hs Hvu Hp.
  assert (Hb' : ~ ends_in_backslash value).
  { intros (t & b & -> & Hbl). apply Hb. exists (([DASH; DASH] ++ name ++ [EQUALS]) ++ t), b.
    split; [cbn [app]; rewrite <- !app_assoc; reflexivity|exact Hbl]. }
  pose proof (good_sub _ G) as [_ G1]. pose proof (good_sub _ G1) as [_ G2].
  rewrite <- app_assoc in *. cbn [app] in *.
  rewrite !valid_utf8_cons_ascii in Hvu by reflexivity. rewrite <- app_assoc in *. cbn [app] in *.
  assert (Hvv : valid_utf8 (value ++ s) = true).
  { rewrite (class_valid is_alpha) in Hvu; [|apply alpha_ascii|apply Hn]. rewrite valid_utf8_cons_ascii in Hvu by reflexivity. exact Hvu. }
  pose proof (pos_app _ _ [DASH; DASH] _ Hp) as Hp1. cbn [length] in Hp1.
  pose proof (pos_app _ _ _ _ Hp1) as Hp2. pose proof (pos_app _ _ [EQUALS] _ Hp2) as Hp3. cbn [length] in Hp3.
  assert (E : run ctx0 (Call r) p (DASH :: DASH :: name ++ EQUALS :: value ++ s) =
    Done (p + S (S (length (name ++ EQUALS :: value)))) s
      [Node r p (p + S (S (length (name ++ EQUALS :: value))))
        [Node rn (p + 2) (p + 2 + length name) []; Node rv (p + 2 + length name + 1) (p + 2 + length name + 1 + length value) []]]).
  { apply token_fwd; rewrite Hr; [discriminate|]. cbn [fst snd rule_inner rule_outer]. rewrite run_seq by exact G.
    rewrite run_str. cbn [match_str]. change (DASH =? DASH)%N with true. cbn iota. cbn [length].
    rewrite run_seq by exact G1. rewrite letters_fwd; [|exact Hrn|exact Hn|reflexivity].
    rewrite run_seq by exact G2. rewrite class_str. change (EQUALS =? EQUALS)%N with true. cbn iota.
    rewrite (word_rule_fwd rv AtomicRule) by (assumption || discriminate).
    cbn [app]. f_equal. rewrite app_length. cbn [length]. lia. }
  eexists _, _. split; [cbn [length]; exact E|]. split; [reflexivity|]. split; [reflexivity|].
  eexists _, _. split; [|split; [apply (parse_string_fwd unq src _ _ _ _ _ _ Hp3 Hx)|reflexivity]].
  apply (parse_string_plain unq src _ _ _ _ _ Hp1). apply letters_not_quoted; exact Hn.
Qed.

Lemma from_flag_fwd p w x s : clear_flag_at unq p w x -> word_end s -> valid_utf8 (w ++ s) = true -> pos p (w ++ s) ->
  exists t, run ctx0 (Call R_from_flag) p (w ++ s) = Done (p + length w) s [t] /\ t_rule t = R_from_flag /\
    from_flag_of unq src t = Ok x.
Proof.
  intros Hx Hs Hv Hp.
  destruct (flag_run R_from_flag R_from_flag_name R_from_flag_value p w x s eq_refl eq_refl eq_refl eq_refl Hx Hs Hv Hp)
    as (t1 & t2 & E & Ht1 & Ht2 & name & value & E1 & E2 & ->).
  eexists. split; [exact E|]. split; [reflexivity|]. unfold from_flag_of. cbn [t_children for_each].
  rewrite Ht1, E1. cbn [bind]. rewrite Ht2, E2. reflexivity.
Qed.

Lemma copy_flag_fwd p w x s : clear_flag_at unq p w x -> word_end s -> valid_utf8 (w ++ s) = true -> pos p (w ++ s) ->
  exists t, run ctx0 (Call R_copy_flag) p (w ++ s) = Done (p + length w) s [t] /\ t_rule t = R_copy_flag /\
    copy_flag_of unq src t = Ok x.
Proof.
  intros Hx Hs Hv Hp.
  destruct (flag_run R_copy_flag R_copy_flag_name R_copy_flag_value p w x s eq_refl eq_refl eq_refl eq_refl Hx Hs Hv Hp)
    as (t1 & t2 & E & Ht1 & Ht2 & name & value & E1 & E2 & ->).
  eexists. split; [exact E|]. split; [reflexivity|]. unfold copy_flag_of. cbn [t_children for_each].
  rewrite Ht1, E1. cbn [bind]. rewrite Ht2, E2. reflexivity.
Qed.

Lemma flag_solid p w x s : clear_flag_at unq p w x -> gap_stops (w ++ s).
Proof. intros [(name & value & v & -> & _) _]. cbn. repeat split; discriminate. Qed.

Lemma flag_valid p w x s : clear_flag_at unq p w x -> valid_utf8 (w ++ s) = valid_utf8 s.
Proof.
  intros [(name & value & v & -> & Hn & Hv & _) _]. cbn [app]. rewrite !valid_utf8_cons_ascii by reflexivity.
  rewrite <- app_assoc. rewrite (class_valid is_alpha); [|apply alpha_ascii|apply Hn]. cbn [app].
  rewrite valid_utf8_cons_ascii by reflexivity. apply word_valid. exact Hv.
Qed.

Lemma flag_fails r e p s : grammar r = (Normal, Seq (Str [DASH; DASH]) e) -> (forall t, s <> DASH :: DASH :: t) ->
  run ctx0 (Call r) p s = Fail.
Proof.
  intros Hr Hs. rewrite run_call, Hr. cbn [fst snd]. pose proof (good_rule r) as G. rewrite Hr in G. cbn [snd] in G.
  rewrite run_seq by exact G. rewrite run_str.
  destruct s as [|x [|y s]]; cbn [match_str]; [reflexivity|destruct (DASH =? x)%N; reflexivity|].
  destruct (DASH =? x)%N eqn:E1; [|reflexivity]. destruct (DASH =? y)%N eqn:E2; [|reflexivity].
  bool_hyps. subst. exfalso. apply (Hs s). reflexivity.
Qed.

(** ** FROM *)

Lemma alias_fwd p al x s : alias_at p al x -> closed_end s -> valid_utf8 s = true -> pos p (al ++ s) ->
  exists f, run ctx0 (Opt (Call R_from_alias_outer)) p (al ++ s) = Done (p + length al) s f /\
    exists field, (forall i fl, for_each from_step f (i, None, fl) = Ok (i, field, fl)) /\
      match field with Some t => y <- parse_string unq src t;; Ok (Some y) | None => Ok None end = Ok x.
Proof.
  intros Ha Hs Hv Hp. rewrite run_opt by reflexivity. rewrite run_call.
  change (snd (grammar R_from_alias_outer)) with (Seq arg_ws (Seq (Insens (bs "as")) (Seq arg_ws (Call R_from_alias)))).
  change (rule_inner (fst (grammar R_from_alias_outer)) ctx0) with ctx0.
  destruct Ha as [[-> ->]|(j & g1 & as_ & k & g2 & a & -> & Hg1 & Hn1 & Has & Hg2 & Hn2 & [Hane Ha] & ->)].
  - cbn [app length]. rewrite closed_seq_fails; [|reflexivity|exact Hs|exact Hv|].
    + exists []. rewrite Nat.add_0_r. split; [reflexivity|]. exists None. split; reflexivity.
    + intros q t Ht _. rewrite run_seq by reflexivity. rewrite insens_fails_end; [reflexivity|repeat constructor|discriminate|exact Ht].
  - rewrite <- !app_assoc in *.
    assert (Hva : valid_utf8 (a ++ s) = true) by (rewrite (class_valid alias_char _ _ alias_ascii Ha); exact Hv).
    assert (Hvg : valid_utf8 (g2 ++ a ++ s) = true) by (rewrite (valid_gap _ _ _ Hg2); exact Hva).
    assert (Hvk : valid_utf8 (as_ ++ g2 ++ a ++ s) = true) by (rewrite (keyword_valid "as"); [exact Hvg|exact Has|repeat constructor]).
    rewrite run_seq by reflexivity.
    destruct (gap_fwd j g1 (as_ ++ g2 ++ a ++ s) p Hg1 Hn1) as (f1 & -> & Hc1 & _);
      [apply (keyword_solid "as"); [exact Has|discriminate|repeat constructor]|exact Hvk|].
    rewrite run_seq by reflexivity. rewrite keyword_fwd; [|exact Has|reflexivity].
    rewrite run_seq by reflexivity.
    destruct (gap_fwd k g2 (a ++ s) (p + length g1 + length as_) Hg2 Hn2) as (f2 & -> & Hc2 & _);
      [apply (class_stops alias_char); [apply alias_solid|exact Hane|exact Ha]|exact Hva|].
    pose proof (pos_app _ _ _ _ Hp) as Hp1. pose proof (pos_app _ _ _ _ Hp1) as Hp2. pose proof (pos_app _ _ _ _ Hp2) as Hp3.
    assert (E : run ctx0 (Call R_from_alias) (p + length g1 + length as_ + length g2) (a ++ s) =
      Done (p + length g1 + length as_ + length g2 + length a) s
       [Node R_from_alias (p + length g1 + length as_ + length g2) (p + length g1 + length as_ + length g2 + length a) []]).
    { apply token_fwd; [discriminate|]. cbn [grammar fst snd rule_inner rule_outer]. rewrite run_call.
      cbn [grammar fst snd rule_inner rule_outer rule_tokens].
      rewrite (class_rep1_fwd _ alias_char); [reflexivity|reflexivity|apply class_alias|exact Hane|exact Ha|].
      apply closed_class; [exact Hs|apply alias_solid]. }
    rewrite E. cbn [grammar fst rule_tokens]. eexists. split; [f_equal; rewrite !app_length; lia|].
    eexists. split.
    + intros i fl. rewrite for_each_gap by (assumption || apply from_step_comments). cbn [app].
      rewrite for_each_gap by (assumption || apply from_step_comments). reflexivity.
    + cbn beta iota. rewrite (parse_string_plain unq src _ _ _ _ _ Hp3); [reflexivity|].
      apply (class_not_quoted alias_char a Ha); reflexivity.
Qed.

Lemma alias_head p al x s : alias_at p al x -> closed_end s ->
  match al ++ s with c :: _ => image_char c = false | [] => True end.
Proof.
  intros [[-> _]|(j & g1 & as_ & k & g2 & a & -> & Hg1 & Hn1 & _)] Hs.
  - apply closed_class; [exact Hs|apply image_solid].
  - rewrite <- app_assoc. apply (gap_class _ j); [exact Hg1|exact Hn1|apply image_solid].
Qed.

Lemma alias_valid p al x s : alias_at p al x -> valid_utf8 (al ++ s) = valid_utf8 s.
Proof.
  intros [[-> _]|(j & g1 & as_ & k & g2 & a & -> & Hg1 & Hn1 & Has & Hg2 & Hn2 & [_ Ha] & _)]; [reflexivity|].
  rewrite <- !app_assoc, (valid_gap _ _ _ Hg1), (keyword_valid "as"), (valid_gap _ _ _ Hg2), (class_valid alias_char);
    [reflexivity|apply alias_ascii|exact Ha|exact Has|repeat constructor].
Qed.

Lemma from_fwd p w x s : clear_from_at unq p w x -> closed_end s -> valid_utf8 (w ++ s) = true -> pos p (w ++ s) ->
  exists t, run ctx0 (Call R_from) p (w ++ s) = Done (p + length w) s [t] /\ t_rule t = R_from /\
    forall n, from_of unq src t n = Ok (set_index x n).
Proof.
  intros (kw & fl & k & g & img & al & -> & Hkw & Hfl & Hg & Hne & [Hin Hi] & Hd & Himg & Hparsed & Hdig & Hal & Hsp) Hs Hv Hp.
  rewrite <- !app_assoc in *.
  rewrite (keyword_valid "from") in Hv by first [assumption | repeat constructor].
  rewrite (spaced_valid _ flag_valid _ _ _ _ Hfl), (valid_gap _ _ _ Hg), (class_valid _ _ _ image_ascii Hi), (alias_valid _ _ _ _ Hal) in Hv.
  assert (Hva : valid_utf8 (al ++ s) = true) by (rewrite (alias_valid _ _ _ _ Hal); exact Hv).
  assert (Hvi : valid_utf8 (img ++ al ++ s) = true) by (rewrite (class_valid _ _ _ image_ascii Hi); exact Hva).
  assert (Hvg : valid_utf8 (g ++ img ++ al ++ s) = true) by (rewrite (valid_gap _ _ _ Hg); exact Hvi).
  pose proof (pos_app _ _ _ _ Hp) as Hp1. pose proof (pos_app _ _ _ _ Hp1) as Hp2.
  pose proof (pos_app _ _ _ _ Hp2) as Hp3. pose proof (pos_app _ _ _ _ Hp3) as Hp4.
  assert (Hist : gap_stops (img ++ al ++ s)) by (apply (class_stops image_char); [apply image_solid|exact Hin|exact Hi]).
  destruct (spaced_fwd R_from_flag (clear_flag_at unq) (from_flag_of unq src) from_step add_flag eq_refl
    from_flag_fwd flag_solid flag_valid ltac:(intros [[i a] l] t Ht; unfold SoundInstr.from_step; rewrite Ht; reflexivity)
    (from_step_comments unq src) _ _ _ Hfl (g ++ img ++ al ++ s) (gap_word_end _ _ _ Hg Hne) Hvg Hp1) as (f1 & E1 & Hf1).
  { rewrite run_seq by reflexivity.
    destruct (gap_fwd k g (img ++ al ++ s) (p + length kw + length fl) Hg Hne Hist Hvi) as (f2 & -> & _).
    rewrite (flag_fails R_from_flag (Seq (Call R_from_flag_name) (Seq (Str [EQUALS]) (Call R_from_flag_value))));
      [reflexivity|reflexivity|].
    intros t K. apply Hd. destruct img as [|y img]; [congruence|]. cbn [app] in K. injection K as -> _. exists img. reflexivity. }
  destruct (gap_fwd k g (img ++ al ++ s) (p + length kw + length fl) Hg Hne Hist Hvi) as (f2 & E2 & Hc2 & _).
  assert (E3 : run ctx0 (Call R_from_image) (p + length kw + length fl + length g) (img ++ al ++ s) =
    Done (p + length kw + length fl + length g + length img) (al ++ s)
     [Node R_from_image (p + length kw + length fl + length g) (p + length kw + length fl + length g + length img) []]).
  { apply token_fwd; [discriminate|]. cbn [grammar fst snd].
    apply (class_rep1_fwd _ image_char); [reflexivity|apply class_image|exact Hin|exact Hi|apply (alias_head _ _ _ _ Hal Hs)]. }
  destruct (alias_fwd _ _ _ s Hal Hs Hv Hp4) as (f4 & E4 & field & Hf4 & Hfield).
  eexists. split.
  { apply token_fwd; [discriminate|]. cbn [grammar fst snd rule_inner rule_outer].
    rewrite run_seq by reflexivity. rewrite keyword_fwd; [|exact Hkw|reflexivity].
    rewrite run_seq by reflexivity. rewrite E1. rewrite run_seq by reflexivity. rewrite E2.
    rewrite run_seq by reflexivity. rewrite E3. rewrite E4.
    replace (p + length (kw ++ fl ++ g ++ img ++ al)) with (p + length kw + length fl + length g + length img + length al) by (rewrite !app_length; lia).
    reflexivity. }
  split; [reflexivity|]. intros n. unfold from_of.
  match goal with |- context [for_each ?f _ (None, None, [])] => change f with from_step end.
  cbn [t_children app]. rewrite for_each_app, Hf1, fold_add_flag. cbn [bind app].
  rewrite for_each_gap by (assumption || apply from_step_comments). cbn [app for_each].
  change (from_step (None, None, from_flags x) (Node R_from_image (p + length kw + length fl + length g) (p + length kw + length fl + length g + length img) []))
    with (Ok (Some (Node R_from_image (p + length kw + length fl + length g) (p + length kw + length fl + length g + length img) []), @None tree, from_flags x)).
  cbn [bind]. rewrite Hf4. cbn [bind].
  rewrite (parse_string_plain unq src _ _ _ _ _ Hp3) by (apply (class_not_quoted image_char img Hi); reflexivity).
  cbn [bind ss_content]. pose proof (proj2 (image_parse_spec img _) Hparsed) as Ei. rewrite Ei.
  destruct (i_hash (from_image_parsed x)) as [h|] eqn:Eh.
  - rewrite (proj2 (digest_ok_spec h) (Hdig h eq_refl)). cbn [bind]. rewrite Hfield. cbn [bind].
    destruct x; cbn in *. subst. reflexivity.
  - cbn [bind]. rewrite Hfield. cbn [bind]. destruct x; cbn in *. subst. reflexivity.
Qed.
End Instr.
