(** Parsing a document in which a word after an equals sign was replaced by another. *)

From Coq Require Import String.
From Verif Require Import Bytes BytesFacts Grammar Peg PegFacts Result Ast Splicer Image Convert Dockerfile SpecImage SpecSyntax SpecParts
  SpecSplice SpecMove SpecReword PegRules Sound SoundDoc Shift ConvertMove Once ConvertSame Spelt Oracle ParseFacts SwapParse SwapDoc TwinDoc EqSwap ConvertReword.
Local Open Scope nat_scope.

Section Doc.
Variable unq : bytes -> option bytes.
Variables src src' : bytes.
Variables lo hi : nat.
Variable new : bytes.
Notation g := (replacement lo hi (length new)).
Hypothesis worded : forall x y, (x <= lo \/ hi <= x) -> (y <= lo \/ hi <= y) ->
  slice src' (g x) (g y) = reword_text lo hi new (Span x y) (slice src x y).
Hypothesis new_unquoted : new <> [] /\ starts_quoted new = false.

Definition reword_state (st : doc_state) : doc_state :=
  DocState (map (reword_instruction lo hi new) (ds_instructions st)) (map (reword_arg lo hi new) (ds_global_args st))
    (ds_from_found st) (ds_from_index st).
Notation fit_all := (Forall (fit_instruction src lo hi)).

Lemma doc_step_reword st t st' : neat src lo hi t -> doc_step unq src st t = Ok st' -> fit_all (ds_instructions st') ->
  fit_all (ds_instructions st) /\ doc_step unq src' (reword_state st) (move_tree g t) = Ok (reword_state st').
Proof.
  intros Ht H HP. assert (K : forall i, instruction_of unq src t = Ok i -> fit_instruction src lo hi i ->
    instruction_of unq src' (move_tree g t) = Ok (reword_instruction lo hi new i)).
  { intros i. apply instruction_same; assumption. }
  assert (Keep : forall i, (i <- instruction_of unq src t;;
      match i with
      | IFrom f => Ok (DocState (ds_instructions st ++ [IFrom (set_index f (ds_from_index st))]) (ds_global_args st) true (S (ds_from_index st)))
      | IArg a => Ok (DocState (ds_instructions st ++ [IArg a])
                   (if ds_from_found st then ds_global_args st else ds_global_args st ++ [a]) (ds_from_found st) (ds_from_index st))
      | i => Ok (DocState (ds_instructions st ++ [i]) (ds_global_args st) (ds_from_found st) (ds_from_index st))
      end) = Ok st' -> instruction_of unq src t = Ok i -> fit_all (ds_instructions st) /\ fit_instruction src lo hi i).
  { intros i Hb Ei. rewrite Ei in Hb. cbn [bind] in Hb. destruct i; injection Hb as <-; cbn [ds_instructions] in HP;
      apply Forall_app in HP; destruct HP as [H1 H2]; apply Forall_inv in H2; split; try exact H1; exact H2. }
  unfold doc_step in *. rewrite rule_move. destruct (t_rule t); try (injection H as <-; auto; fail);
    (destruct (instruction_of unq src t) as [i|e| |] eqn:Ei; try discriminate; destruct (Keep i H eq_refl) as [H1 H2];
     split; [exact H1|]; rewrite (K i eq_refl H2); cbn [bind] in *;
     destruct i; injection H as <-; cbn [reword_instruction]; unfold reword_state;
     cbn [ds_instructions ds_global_args ds_from_found ds_from_index]; rewrite ?map_app; try reflexivity;
     destruct (ds_from_found st); rewrite ?map_app; reflexivity).
Qed.

Theorem parse_reword d q s' f q' s'' : valid_utf8 src = true -> run ctx0 (Call R_dockerfile) 0 src = Done q s' f ->
  run ctx0 (Call R_dockerfile) 0 src' = Done q' s'' (map (move_tree g) f) -> Forall (clear_of lo hi) f -> parse unq src = Ok d ->
  fit_all (d_instructions d) -> parse unq src' = Ok (reword_dockerfile lo hi new src' d).
Proof.
  intros V R R' Hc H HP. unfold parse in *. rewrite pest_parse_run in *. rewrite R in H. rewrite R'.
  pose proof (run_orderly _ _ _ _ _ _ _ R) as Ho. pose proof (run_spelt src ctx0 (Call R_dockerfile) 0 src q s' f eq_refl V eq_refl R) as Hs.
  destruct f as [|top f]; [discriminate|]. apply Forall_inv in Ho. apply Forall_inv in Hs. apply Forall_inv in Hc. cbn [map]. rewrite children_move.
  destruct (for_each (doc_step unq src) (t_children top) (DocState [] [] false 0)) as [st|e| |] eqn:E; try discriminate.
  cbn [bind] in H. injection H as <-. cbn [d_instructions d_global_args] in *.
  eapply (for_each_bind g reword_state (fun st => fit_all (ds_instructions st)) (fun _ l => Forall (neat src lo hi) l));
    [exact E|reflexivity|reflexivity|apply neat_children; split; [split; assumption|exact Hc]|exact HP|reflexivity|].
  clear - worded new_unquoted. intros st t l st' Hf E. split; [eapply tail_neat; exact Hf|]. intros HP.
  apply (doc_step_reword st t st'); [eapply head_neat; exact Hf|exact E|exact HP].
Qed.

End Doc.

(** ** The two texts *)

Lemma worded_texts A X Y B : X <> [] ->
  forall x y, (x <= length A \/ length A + length X <= x) -> (y <= length A \/ length A + length X <= y) ->
  slice (A ++ Y ++ B) (replacement (length A) (length A + length X) (length Y) x) (replacement (length A) (length A + length X) (length Y) y) =
  reword_text (length A) (length A + length X) Y (Span x y) (slice (A ++ X ++ B) x y).
Proof.
  intros HX x y Hx Hy. assert (Lx : 0 < length X) by (destruct X; [congruence|cbn [length]; lia]).
  assert (Far : around (length A) (length A + length X) (Span x y) = false \/ x <= length A /\ length A + length X <= y).
  { unfold around. cbn [s_start s_end]. destruct (Nat.leb_spec x (length A)); [|left; reflexivity].
    destruct (Nat.leb_spec (length A + length X) y); [right; lia|left; reflexivity]. }
  destruct Far as [E|[H1 H2]].
  - rewrite (not_around _ _ _ _ _ E). destruct Hy as [Hy|Hy].
    + symmetry. apply slice_before. exact Hy.
    + destruct Hx as [Hx|Hx]; [|symmetry; apply slice_after; assumption].
      unfold around in E. cbn [s_start s_end] in E. apply Nat.leb_le in Hx. apply Nat.leb_le in Hy. rewrite Hx, Hy in E. discriminate.
  - unfold reword_text, around. cbn [s_start s_end]. destruct (Nat.leb_spec x (length A)); [|lia].
    destruct (Nat.leb_spec (length A + length X) y); [|lia]. cbn [andb].
    assert (K : forall Z, slice (A ++ Z ++ B) x (length A + length Z + (y - (length A + length X))) =
      skipn x A ++ Z ++ firstn (y - (length A + length X)) B).
    { intros Z. unfold slice. rewrite skipn_app. replace (x - length A) with 0 by lia. rewrite skipn_O.
      rewrite firstn_app, skipn_length. rewrite (firstn_all2 (skipn x A)) by (rewrite skipn_length; lia).
      f_equal. rewrite firstn_app. rewrite (firstn_all2 Z) by lia. f_equal. f_equal. lia. }
    replace (replacement _ _ _ x) with x by (unfold replacement; destruct (Nat.leb_spec x (length A)); lia).
    replace (replacement _ _ _ y) with (length A + length Y + (y - (length A + length X)))
      by (unfold replacement; destruct (Nat.leb_spec y (length A)); lia).
    rewrite K. pose proof (K X) as KX. replace (length A + length X + (y - (length A + length X))) with y in KX by lia. rewrite KX.
    rewrite firstn_app, skipn_length. replace (length A - x - (length A - x)) with 0 by lia. rewrite firstn_O, app_nil_r.
    rewrite (firstn_all2 (skipn x A)) by (rewrite skipn_length; lia). f_equal. f_equal.
    rewrite skipn_app, skipn_length. rewrite (skipn_all2 (skipn x A)) by (rewrite skipn_length; lia). cbn [app].
    rewrite skipn_app. rewrite (skipn_all2 X) by lia. cbn [app].
    replace (length A + length X - x - (length A - x) - length X) with 0 by lia. reflexivity.
Qed.

(** ** An image is never around a word after an equals sign *)

Lemma image_not_around unq input d x a X B : valid_utf8 input = true -> parse unq input = Ok d -> In (IFrom x) (d_instructions d) ->
  input = (a ++ [EQUALS]) ++ X ++ B -> X <> [] ->
  around (length (a ++ [EQUALS])) (length (a ++ [EQUALS]) + length X) (ss_span (from_image x)) = false.
Proof.
  intros V H Hi E HX. destruct (parsed_instruction unq input d V H _ Hi) as (p & w & Hp & K).
  destruct Hp as (pre & post & Ei & Lp & _). cbn [instruction_at] in K.
  destruct K as (kw & fl & k & gp & img & al & -> & _ & _ & Hg & Hg0 & [_ Him] & -> & _). cbn [ss_span at_].
  destruct (gap_ends _ _ Hg) as [->|(g' & z & -> & Hz)]; [congruence|].
  unfold around, at_. cbn [s_start s_end]. rewrite !app_length. cbn [length].
  match goal with |- ?u && ?v = false => destruct u eqn:E1; [|reflexivity]; destruct v eqn:E2; [|reflexivity] end. exfalso.
  apply Nat.leb_le in E1. apply Nat.leb_le in E2. assert (Lx : 0 < length X) by (destruct X; [congruence|cbn [length]; lia]).
  assert (Ea : nth_error input (length a) = Some EQUALS).
  { rewrite E, <- app_assoc. rewrite nth_error_app2 by lia. rewrite Nat.sub_diag. reflexivity. }
  rewrite Ei in Ea. replace (pre ++ (kw ++ fl ++ (g' ++ [z]) ++ img ++ al) ++ post) with
    ((pre ++ kw ++ fl ++ g') ++ [z] ++ img ++ al ++ post) in Ea by (rewrite <- !app_assoc; reflexivity).
  assert (L : length (pre ++ kw ++ fl ++ g') = p + length kw + length fl + length g') by (rewrite !app_length; lia).
  rewrite nth_error_app2 in Ea by lia.
  destruct (Nat.eq_dec (length a) (p + length kw + length fl + length g')) as [Ee|Ee].
  - rewrite Ee, L, Nat.sub_diag in Ea. cbn [app nth_error] in Ea. injection Ea as ->. discriminate.
  - destruct (length a - length (pre ++ kw ++ fl ++ g')) as [|n] eqn:En; [lia|]. cbn [app nth_error] in Ea.
    rewrite nth_error_app1 in Ea by lia. apply nth_error_In in Ea. rewrite Forall_forall in Him. specialize (Him _ Ea). discriminate.
Qed.

(** ** The theorem *)

Lemma places_fit src lo hi i : (forall sp, In sp (quotable_places i) -> around lo hi sp = true -> ~ begins_quoted (text_at src sp)) ->
  (forall x, i = IFrom x -> around lo hi (ss_span (from_image x)) = false) -> fit_instruction src lo hi i.
Proof.
  intros H HI. assert (K : forall sp, In sp (quotable_places i) -> fit src lo hi sp).
  { intros sp Hi Ha. specialize (H sp Hi Ha). destruct (starts_quoted (text_at src sp)) eqn:E; [|reflexivity]. exfalso. apply H. apply (starts_quoted_spec (fun _ => None) []). exact E. }
  clear H. assert (Kf : forall l, (forall sp, In sp (flat_map flag_places l) -> fit src lo hi sp) -> Forall (fit_flag src lo hi) l).
  { intros l Hl. apply Forall_forall. intros x Hx. split; apply Hl; apply in_flat_map; exists x; split; auto; cbn [flag_places In]; auto. }
  assert (Ks : forall l, (forall sp, In sp (string_places l) -> fit src lo hi sp) -> Forall (fit_string src lo hi) l).
  { intros l Hl. apply Forall_forall. intros x Hx. apply Hl. apply in_map. exact Hx. }
  assert (Ko : forall o, (forall sp, In sp (option_places o) -> fit src lo hi sp) -> same_option (fit_string src lo hi) o).
  { intros [x|] Hl; [|exact I]. apply Hl. left. reflexivity. }
  assert (Kc : forall c, (forall sp, In sp (command_places c) -> fit src lo hi sp) -> fit_command src lo hi c).
  { intros [x|x] Hl; [exact I|]. apply Ks. exact Hl. }
  destruct i as [x|x|x|x|x|x|x|x|x]; cbn [fit_instruction quotable_places] in *.
  - split; [|split].
    + apply Kf. intros sp Hsp. apply K. apply in_or_app. auto.
    + apply HI. reflexivity.
    + apply Ko. intros sp Hsp. apply K. apply in_or_app. right. right. exact Hsp.
  - split; [apply K; left; reflexivity|]. apply Ko. intros sp Hsp. apply K. right. exact Hsp.
  - apply Forall_forall. intros l Hl. split; apply K; apply in_flat_map; exists l; split; auto; cbn [In]; auto.
  - apply Kc. exact K.
  - apply Kc. exact K.
  - apply Kc. exact K.
  - split; [|split].
    + apply Kf. intros sp Hsp. apply K. apply in_or_app. auto.
    + apply Ks. intros sp Hsp. apply K. apply in_or_app. right. apply in_or_app. auto.
    + apply K. apply in_or_app. right. apply in_or_app. right. left. reflexivity.
  - apply Forall_forall. intros l Hl. split; apply K; apply in_flat_map; exists l; split; auto; cbn [In]; auto.
  - apply K. left. reflexivity.
Qed.

Lemma plain_unquoted w : plain_text w -> w <> [] /\ starts_quoted w = false.
Proof.
  intros (_ & Hn & Hp & Hb). split; [exact Hn|]. destruct w as [|c w]; [congruence|]. apply Forall_inv in Hp.
  destruct (starts_quoted (c :: w)) eqn:E; [|reflexivity]. exfalso. apply (starts_quoted_spec (fun _ => None) []) in E. unfold begins_quoted in E.
  destruct E as (c' & t & E & [-> | [-> | ->]]); injection E as -> ->; [discriminate|discriminate|]. apply Hb. exists t. reflexivity.
Qed.

Lemma document_all s q s' f : run ctx0 (Call R_dockerfile) 0 s = Done q s' f -> s' = [].
Proof.
  intros R0. apply call_inv in R0. destruct R0 as (f' & R0 & _). cbn [grammar fst snd rule_inner] in R0.
  change (rule_outer Normal ctx0) with ctx0 in R0.
  apply seq_inv in R0; [|reflexivity]. destruct R0 as (p1 & s1 & f1 & f2 & _ & R0 & _).
  apply seq_inv in R0; [|reflexivity]. destruct R0 as (p2 & s2 & f3 & f4 & _ & R0 & _).
  apply seq_inv in R0; [|reflexivity]. destruct R0 as (p3 & s3 & f5 & f6 & _ & R0 & _).
  apply call_inv in R0. destruct R0 as (fe & R0 & _). cbn [grammar fst snd] in R0. rewrite run_eoi in R0.
  destruct s3; [congruence|discriminate].
Qed.

Theorem parse_reworded unq a X Y B d : valid_utf8 (a ++ [EQUALS] ++ X ++ B) = true -> plain_text X -> plain_text Y ->
  parse unq (a ++ [EQUALS] ++ X ++ B) = Ok d ->
  (forall i sp, In i (d_instructions d) -> In sp (quotable_places i) ->
    around (length (a ++ [EQUALS])) (length (a ++ [EQUALS]) + length X) sp = true -> ~ begins_quoted (text_at (a ++ [EQUALS] ++ X ++ B) sp)) ->
  valid_utf8 (a ++ [EQUALS] ++ Y ++ B) = true /\
  parse unq (a ++ [EQUALS] ++ Y ++ B) =
    Ok (reword_dockerfile (length (a ++ [EQUALS])) (length (a ++ [EQUALS]) + length X) Y (a ++ [EQUALS] ++ Y ++ B) d).
Proof.
  rewrite !(app_assoc a). set (A := a ++ [EQUALS]). intros V HX HY H HQ.
  assert (VA : valid_utf8 A = true /\ valid_utf8 B = true).
  { assert (Va : valid_utf8 a = true).
    { apply (valid_utf8_cut (A ++ X ++ B) V a ([EQUALS] ++ X ++ B)); [unfold A; rewrite <- app_assoc; reflexivity|reflexivity]. }
    assert (VA : valid_utf8 A = true) by (unfold A; rewrite valid_utf8_app by exact Va; reflexivity). split; [exact VA|].
    rewrite valid_utf8_app in V by exact VA. rewrite valid_utf8_app in V by apply HX. exact V. }
  destruct VA as [VA VB]. split; [rewrite valid_utf8_app by exact VA; rewrite valid_utf8_app by apply HY; exact VB|].
  destruct (run ctx0 (Call R_dockerfile) 0 (A ++ X ++ B)) as [q s' f| |] eqn:R; try (unfold parse in H; rewrite pest_parse_run, R in H; discriminate).
  pose proof (document_all _ _ _ _ R) as ->.
  destruct (reworded_document A X Y B HX HY VB (ex_intro _ a eq_refl) VA q f R) as [R' Hc].
  eapply parse_reword; [apply worded_texts; apply HX|apply plain_unquoted; exact HY|exact V|exact R|exact R'|exact Hc|exact H|].
  apply Forall_forall. intros i Hi. apply places_fit; [intros sp; apply HQ; exact Hi|].
  intros x ->. apply (image_not_around unq (A ++ X ++ B) d x a X B V H Hi eq_refl). apply HX.
Qed.

(** ** Rejected documents *)

Lemma reword_rejected unq a X Y B : valid_utf8 (a ++ [EQUALS] ++ X ++ B) = true -> plain_text X -> plain_text Y ->
  parse unq (a ++ [EQUALS] ++ X ++ B) = Err EParse -> parse unq (a ++ [EQUALS] ++ Y ++ B) = Err EParse.
Proof.
  intros V HX HY H.
  assert (Va : valid_utf8 a = true) by (apply (valid_utf8_cut _ V a ([EQUALS] ++ X ++ B)); reflexivity).
  assert (VA : valid_utf8 (a ++ [EQUALS]) = true) by (rewrite valid_utf8_app by exact Va; reflexivity).
  rewrite !(app_assoc a) in *. pose proof V as VB.
  rewrite valid_utf8_app in VB by exact VA. rewrite valid_utf8_app in VB by apply HX.
  assert (V' : valid_utf8 ((a ++ [EQUALS]) ++ Y ++ B) = true) by (rewrite valid_utf8_app by exact VA; rewrite valid_utf8_app by apply HY; exact VB).
  apply TwinDoc.rejected_run; [exact V'|]. apply TwinDoc.rejected_run in H; [|exact V].
  destruct (run ctx0 (Call R_dockerfile) 0 ((a ++ [EQUALS]) ++ Y ++ B)) as [q s' f| |] eqn:R; [|reflexivity|].
  - exfalso. pose proof (document_all _ _ _ _ R) as ->.
    destruct (reworded_document (a ++ [EQUALS]) Y X B HY HX VB (ex_intro _ a eq_refl) VA q f R) as [R' _]. congruence.
  - exfalso. pose proof (pest_parse_total R_dockerfile ((a ++ [EQUALS]) ++ Y ++ B)) as K. rewrite pest_parse_run in K. congruence.
Qed.
