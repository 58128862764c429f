(** One change after another keeps the rest of the changes possible. *)

From Coq Require Import String Permutation.
From Verif Require Import Bytes BytesFacts Grammar Peg Result Ast Splicer Image Convert Dockerfile
  SpecImage SpecSplice SplicerFacts SpecSyntax SpecMove SpecParts SpecDoc SpecReword SpecArgument SpecAlias SpecChanges
  PartsFacts DocFacts ParseFacts SelectFacts PropsParse PropsDoc PropsEdit RewordDoc RewordFacts ArgumentDoc AliasDoc NamesFacts PropsAlias.
From Verif Require Swap SwapDoc EqSwap Sound.
Local Open Scope nat_scope.

(** ** The changed text *)

Section Text.
Variables (W t : bytes) (lo hi : nat).
Hypothesis L : lo <= length W.
Notation W' := (firstn lo W ++ t ++ skipn hi W).

Lemma text_front k : k <= lo -> firstn k W' = firstn k W.
Proof.
  intros H. rewrite firstn_app, firstn_length, Nat.min_l by exact L. replace (k - lo) with 0 by lia. rewrite firstn_O, app_nil_r.
  rewrite firstn_firstn. f_equal. lia.
Qed.

Lemma text_same sp : s_end sp <= lo -> text_at W' sp = text_at W sp.
Proof.
  intros H. unfold text_at, slice. rewrite !firstn_skipn_comm.
  destruct (Nat.le_gt_cases (s_start sp) (s_end sp)).
  - replace (s_start sp + (s_end sp - s_start sp)) with (s_end sp) by lia. rewrite text_front by exact H. reflexivity.
  - replace (s_start sp + (s_end sp - s_start sp)) with (s_start sp) by lia.
    rewrite !skipn_all2; [reflexivity| |]; rewrite firstn_length; lia.
Qed.

Lemma text_nth k : k < lo -> nth_error W' k = nth_error W k.
Proof.
  intros H. transitivity (nth_error (firstn lo W) k); [apply nth_error_app1; rewrite firstn_length; lia|].
  transitivity (nth_error (firstn lo W ++ skipn lo W) k); [|rewrite firstn_skipn; reflexivity].
  symmetry. apply nth_error_app1. rewrite firstn_length. lia.
Qed.

End Text.

Lemma nth_skipn (W : bytes) k : nth_error W k = hd_error (skipn k W).
Proof. revert W. induction k as [|k IH]; intros [|c W]; try reflexivity. cbn [nth_error skipn]. apply IH. Qed.

Lemma quoted_nth W y : begins_quoted (text_at W y) <->
  s_start y < s_end y /\ exists c, nth_error W (s_start y) = Some c /\ (c = DQUOTE \/ c = SQUOTE \/ c = BACKTICK).
Proof.
  unfold begins_quoted, text_at, slice. rewrite nth_skipn. destruct (skipn (s_start y) W) as [|x w].
  - rewrite firstn_nil. split; [intros (c & t & K & _); discriminate|intros (_ & c & K & _); discriminate].
  - destruct (s_end y - s_start y) as [|n] eqn:En; cbn [firstn hd_error].
    + split; [intros (c & t & K & _); discriminate|intros [K _]; lia].
    + split; [intros (c & t & K & Hc); injection K as <- _; split; [lia|]; exists x; auto|].
      intros (_ & c & K & Hc). injection K as <-. exists x, (firstn n w). auto.
Qed.

Lemma text_split W sp : s_start sp <= s_end sp -> s_end sp <= length W ->
  W = firstn (s_start sp) W ++ text_at W sp ++ skipn (s_end sp) W /\ length (firstn (s_start sp) W) = s_start sp /\
  s_start sp + length (text_at W sp) = s_end sp.
Proof.
  intros L1 L2. split; [|split].
  - unfold text_at, slice. rewrite <- (firstn_skipn (s_start sp) W) at 1. f_equal.
    rewrite <- (firstn_skipn (s_end sp - s_start sp) (skipn (s_start sp) W)) at 1. f_equal. rewrite skipn_skipn. f_equal. lia.
  - rewrite firstn_length. lia.
  - unfold text_at, slice. rewrite firstn_length, skipn_length. lia.
Qed.

Lemma text_nonempty W sp : text_at W sp <> [] -> s_start sp < s_end sp.
Proof.
  intros H. destruct (Nat.lt_ge_cases (s_start sp) (s_end sp)) as [K|K]; [exact K|]. exfalso. apply H. unfold text_at, slice.
  replace (s_end sp - s_start sp) with 0 by lia. reflexivity.
Qed.

Lemma image_plain w : image_text w -> Forall (fun c => plain_byte c = true) w.
Proof.
  intros [_ H]. eapply Forall_impl; [|exact H]. intros c Hc. destruct (Swap.image_char_solid c Hc) as (H1 & H2 & H3). unfold plain_byte.
  rewrite H1, H2. assert (N : forall d, image_char d = false -> (c =? d)%N = false).
  { intros d Hd. apply N.eqb_neq. apply (Swap.image_char_not c d Hc Hd). }
  rewrite !N by reflexivity. reflexivity.
Qed.

(** ** Offsets *)

Section Offsets.
Variables lo hi n : nat.
Hypothesis LH : lo < hi.
Notation g := (replacement lo hi n).

Lemma offset_below x : x <= lo -> g x = x.
Proof. intros H. unfold replacement. destruct (Nat.leb_spec x lo); lia. Qed.
Lemma offset_above x : lo < x -> lo <= g x.
Proof. intros H. unfold replacement. destruct (Nat.leb_spec x lo); lia. Qed.
Lemma span_below sp : s_start sp <= s_end sp -> s_end sp <= lo -> move_span g sp = sp.
Proof. intros H1 H2. destruct sp as [a b]. unfold move_span. cbn [s_start s_end] in *. rewrite !offset_below by lia. reflexivity. Qed.

Lemma around_moved a b y : a < b -> b <= lo -> around a b (move_span g y) = true -> around a b y = true /\ s_start y < lo.
Proof.
  intros H1 H2. unfold around, move_span. cbn [s_start s_end]. rewrite !andb_true_iff, !Nat.leb_le. intros [K1 K2].
  assert (S : s_start y <= a).
  { destruct (Nat.le_gt_cases (s_start y) lo) as [K|K]; [rewrite offset_below in K1 by exact K; exact K1|]. apply offset_above in K. lia. }
  split; [|lia]. split; [exact S|]. destruct (Nat.le_gt_cases (s_end y) lo) as [K|K]; [rewrite offset_below in K2 by exact K; exact K2|]. lia.
Qed.

Lemma quoted_moved W t y : lo <= length W -> s_start y < lo ->
  begins_quoted (text_at (firstn lo W ++ t ++ skipn hi W) (move_span g y)) -> begins_quoted (text_at W y).
Proof.
  intros L K. rewrite !quoted_nth. unfold move_span. cbn [s_start s_end]. rewrite (offset_below (s_start y)) by lia. rewrite text_nth by assumption.
  intros (H1 & H2). split; [|exact H2]. destruct (Nat.le_gt_cases (s_end y) lo) as [B|B]; [rewrite offset_below in H1 by exact B; exact H1|lia].
Qed.

End Offsets.

(** ** The changed instructions *)

Lemma changed_cases c i : changed_instruction c i = move_instruction (change_offset c) i \/
  (exists f f', i = IFrom f /\ changed_instruction c i = IFrom f' /\ from_span f' = move_span (change_offset c) (from_span f) /\
     from_flags f' = map (move_flag (change_offset c)) (from_flags f) /\
     ss_span (from_image f') = move_span (change_offset c) (ss_span (from_image f)) /\
     option_map ss_span (from_alias f') = option_map (fun a => move_span (change_offset c) (ss_span a)) (from_alias f)) \/
  (exists sp t, (c = AfterEquals sp t \/ c = NewWord sp t) /\ changed_instruction c i = reword_instruction (s_start sp) (s_end sp) t i).
Proof.
  destruct c as [sp t r|sp t|sp t|sp t].
  - destruct i as [f| | | | | | | |]; cbn [changed_instruction]; auto. destruct (span_eq_dec (ss_span (from_image f)) sp); [|auto].
    right. left. eexists f, _. split; [reflexivity|]. split; [reflexivity|]. cbn. repeat split. destruct (from_alias f); reflexivity.
  - destruct i as [f| | | | | | | |]; cbn [changed_instruction]; auto. destruct (from_alias f) as [al|] eqn:Ea; [|auto].
    destruct (span_eq_dec (ss_span al) sp); [|auto].
    right. left. eexists f, _. split; [reflexivity|]. split; [reflexivity|]. cbn. rewrite Ea. repeat split.
  - right. right. exists sp, t. auto.
  - right. right. exists sp, t. auto.
Qed.

Lemma strings_moved g l : map ss_span (map (move_string g) l) = map (move_span g) (map ss_span l).
Proof. rewrite !map_map. reflexivity. Qed.
Lemma option_moved g o : option_places (option_map (move_string g) o) = map (move_span g) (option_places o).
Proof. destruct o; reflexivity. Qed.
Lemma flat_moved {A B C D} (f : A -> B) (h : C -> D) (p : A -> list C) (q : B -> list D) l :
  (forall x, q (f x) = map h (p x)) -> flat_map q (map f l) = map h (flat_map p l).
Proof. intros H. induction l as [|x l IH]; [reflexivity|]. cbn [map flat_map]. rewrite map_app, H, IH. reflexivity. Qed.

Lemma places_moved g i : quotable_places (move_instruction g i) = map (move_span g) (quotable_places i).
Proof.
  destruct i as [x|x|x|x|x|x|x|x|x]; cbn [move_instruction quotable_places].
  - cbn [move_from from_flags from_image from_alias]. rewrite map_app. cbn [map]. rewrite option_moved. f_equal. apply flat_moved. reflexivity.
  - cbn [move_arg arg_name arg_value map]. rewrite option_moved. reflexivity.
  - cbn [label_labels]. apply flat_moved. reflexivity.
  - cbn [run_expr]. destruct (run_expr x); cbn [move_command command_places move_array sa_elements]; [reflexivity|apply strings_moved].
  - cbn [entrypoint_expr]. destruct (entrypoint_expr x); cbn [move_command command_places move_array sa_elements]; [reflexivity|apply strings_moved].
  - cbn [cmd_expr]. destruct (cmd_expr x); cbn [move_command command_places move_array sa_elements]; [reflexivity|apply strings_moved].
  - cbn [copy_flags copy_sources copy_destination]. rewrite !map_app. f_equal; [apply flat_moved; reflexivity|]. f_equal. apply strings_moved.
  - cbn [env_vars]. apply flat_moved. reflexivity.
  - reflexivity.
Qed.

Lemma strings_reworded a b t l : map ss_span (map (reword_string a b t) l) = map (move_span (replacement a b (length t))) (map ss_span l).
Proof. rewrite !map_map. reflexivity. Qed.
Lemma option_reworded a b t o : option_places (option_map (reword_string a b t) o) = map (move_span (replacement a b (length t))) (option_places o).
Proof. destruct o; reflexivity. Qed.

Lemma places_reworded a b t i : quotable_places (reword_instruction a b t i) = map (move_span (replacement a b (length t))) (quotable_places i).
Proof.
  destruct i as [x|x|x|x|x|x|x|x|x]; cbn [reword_instruction quotable_places].
  - cbn [reword_from from_flags from_image from_alias]. rewrite map_app. cbn [map]. rewrite option_reworded. f_equal. apply flat_moved. reflexivity.
  - cbn [reword_arg arg_name arg_value map]. rewrite option_reworded. reflexivity.
  - cbn [label_labels]. apply flat_moved. reflexivity.
  - cbn [run_expr]. destruct (run_expr x); cbn [reword_command command_places reword_array sa_elements]; [reflexivity|apply strings_reworded].
  - cbn [entrypoint_expr]. destruct (entrypoint_expr x); cbn [reword_command command_places reword_array sa_elements]; [reflexivity|apply strings_reworded].
  - cbn [cmd_expr]. destruct (cmd_expr x); cbn [reword_command command_places reword_array sa_elements]; [reflexivity|apply strings_reworded].
  - cbn [copy_flags copy_sources copy_destination]. rewrite !map_app. f_equal; [apply flat_moved; reflexivity|]. f_equal. apply strings_reworded.
  - cbn [env_vars]. apply flat_moved. reflexivity.
  - reflexivity.
Qed.

Lemma changed_places c i : quotable_places (changed_instruction c i) = map (move_span (change_offset c)) (quotable_places i).
Proof.
  destruct (changed_cases c i) as [->|[(f & f' & -> & -> & _ & E1 & E2 & E3)|(sp & t & Ec & ->)]].
  - apply places_moved.
  - cbn [quotable_places]. rewrite map_app. cbn [map]. rewrite E1, E2. f_equal; [apply flat_moved; reflexivity|]. f_equal.
    destruct (from_alias f), (from_alias f'); cbn in *; try discriminate; [injection E3 as ->|]; reflexivity.
  - rewrite places_reworded. destruct Ec as [-> | ->]; reflexivity.
Qed.

Lemma changed_span c i : instruction_span (changed_instruction c i) = move_span (change_offset c) (instruction_span i).
Proof.
  destruct (changed_cases c i) as [->|[(f & f' & -> & -> & E & _)|(sp & t & Ec & ->)]].
  - destruct i; reflexivity.
  - exact E.
  - destruct Ec as [-> | ->]; destruct i; reflexivity.
Qed.

Lemma changed_from c f : exists f', changed_instruction c (IFrom f) = IFrom f' /\
  ss_span (from_image f') = move_span (change_offset c) (ss_span (from_image f)) /\
  option_map ss_span (from_alias f') = option_map (fun a => move_span (change_offset c) (ss_span a)) (from_alias f).
Proof.
  destruct (changed_cases c (IFrom f)) as [->|[(f0 & f' & Ef & -> & _ & _ & E2 & E3)|(sp & t & Ec & ->)]].
  - exists (move_from (change_offset c) f). split; [reflexivity|]. split; [reflexivity|]. cbn. destruct (from_alias f); reflexivity.
  - injection Ef as <-. exists f'. auto.
  - eexists. split; [reflexivity|]. destruct Ec as [-> | ->]; (split; [reflexivity|]); cbn; destruct (from_alias f); reflexivity.
Qed.

(** ** One change *)

Section One.
Variable unq : bytes -> option bytes.
Variables (W : bytes) (d : dockerfile).
Hypothesis V : valid_utf8 W = true.
Hypothesis E : parse unq W = Ok d.

Lemma content_W : d_content d = W.
Proof. exact (parse_content _ _ _ E). Qed.

Lemma in_split_eq i : In i (d_instructions d) -> exists l1 l2, d_instructions d = l1 ++ i :: l2.
Proof. apply in_split. Qed.

(** No other place of a string is where this one is. *)
Lemma place_alone l1 i l2 sp : d_instructions d = l1 ++ i :: l2 -> In sp (quotable_places i) ->
  forall j, In j l1 \/ In j l2 -> ~ In sp (quotable_places j).
Proof.
  intros El Hsp j Hj K. destruct (selection_spans unq W d _ V E (places_selected (d_instructions d))) as [Ho _].
  assert (In1 : forall l, In j l -> In sp (flat_map quotable_places l)) by (intros l Hl; apply in_flat_map; exists j; auto).
  assert (In2 : In sp (flat_map quotable_places (d_instructions d))).
  { apply in_flat_map. exists i. split; [rewrite El; apply in_or_app; right; left; reflexivity|exact Hsp]. }
  destruct (in_order_bounds _ _ _ _ Ho In2) as (_ & L & _).
  rewrite El, flat_map_app in Ho. cbn [flat_map] in Ho.
  destruct Hj as [Hj|Hj].
  - apply SplicerFacts.in_order_app in Ho. destruct Ho as [_ Ho].
    specialize (Ho sp ltac:(apply in_or_app; left; exact Hsp) sp (In1 _ Hj)). lia.
  - rewrite app_assoc in Ho. apply SplicerFacts.in_order_app in Ho. destruct Ho as [_ Ho].
    specialize (Ho sp (In1 _ Hj) sp ltac:(apply in_or_app; right; exact Hsp)). lia.
Qed.

Lemma image_place f : In (ss_span (from_image f)) (quotable_places (IFrom f)).
Proof. cbn [quotable_places]. apply in_or_app. right. left. reflexivity. Qed.
Lemma alias_place f al : from_alias f = Some al -> In (ss_span al) (quotable_places (IFrom f)).
Proof. intros H. cbn [quotable_places]. apply in_or_app. right. right. rewrite H. left. reflexivity. Qed.

(** What holds of the span and the text of a change *)
Definition well_placed (c : change) : Prop :=
  s_start (change_span c) < s_end (change_span c) /\ s_end (change_span c) <= length W /\ on_boundaries W (change_span c) /\
  Forall (fun x => plain_byte x = true) (text_at W (change_span c)) /\ valid_utf8 (change_text c) = true.

Lemma around_text pre w post : W = pre ++ w ++ post ->
  firstn (length pre) W = pre /\ skipn (length pre + length w) W = post /\ text_at W (Span (length pre) (length pre + length w)) = w.
Proof.
  intros ->. split; [|split].
  - rewrite firstn_app, Nat.sub_diag, firstn_O, app_nil_r. apply firstn_all.
  - rewrite app_assoc, <- app_length, skipn_app, Nat.sub_diag, skipn_all. reflexivity.
  - unfold text_at, slice. cbn [s_start s_end]. rewrite skipn_app, skipn_all, Nat.sub_diag. cbn [skipn app].
    replace (length pre + length w - length pre) with (length w) by lia. rewrite firstn_app, Nat.sub_diag, firstn_O, app_nil_r. apply firstn_all.
Qed.

Lemma boundaries a X B : W = a ++ X ++ B -> valid_utf8 a = true -> valid_utf8 X = true -> on_boundaries W (Span (length a) (length a + length X)).
Proof.
  intros Ei Va VX. pose proof V as V3. rewrite Ei in V3. rewrite valid_utf8_app in V3 by exact Va. pose proof V3 as V4.
  rewrite valid_utf8_app in V4 by exact VX. rewrite Ei. split; cbn [s_start s_end].
  - apply boundary_of_app. exact V3.
  - pose proof (boundary_of_app (a ++ X) _ V4) as K. rewrite app_length, <- app_assoc in K. exact K.
Qed.

Lemma place_bounded i sp : In i (d_instructions d) -> In sp (quotable_places i) ->
  s_start sp < s_end sp /\ s_end sp <= length W /\ on_boundaries W sp.
Proof.
  intros Hi Hsp. destruct (selection_spans unq W d _ V E (places_selected (d_instructions d))) as [Ho Hb].
  assert (In2 : In sp (flat_map quotable_places (d_instructions d))) by (apply in_flat_map; exists i; auto).
  destruct (in_order_bounds _ _ _ _ Ho In2) as (_ & L1 & L2). rewrite content_W in *. repeat split; try lia; apply (Hb sp In2).
Qed.

Lemma span_eta sp a b : s_start sp = a -> s_end sp = b -> sp = Span a b.
Proof. destruct sp. cbn. congruence. Qed.

Theorem change_step c : can_make d c ->
  well_placed c /\ valid_utf8 (changed_text c W) = true /\ parse unq (changed_text c W) = Ok (changed c d).
Proof.
  unfold well_placed, changed, changed_text. intros H. destruct c as [sp t r|sp t|sp t|sp t]; cbn [can_make change_span change_text] in *.
  - destruct H as (Ht & f & Hi & <-). destruct (in_split _ _ Hi) as (l1 & l2 & El).
    destruct (SwapDoc.parse_replace unq W d l1 f l2 V E El) as (pre & post & Ei & Hne & Es & K).
    destruct (K t r Ht _ eq_refl) as [Vn Hn]. clear K.
    destruct (place_bounded _ _ Hi (image_place f)) as (L1 & L2 & Hb). destruct (around_text _ _ _ Ei) as (E1 & E2 & E3).
    split; [split; [exact L1|split; [exact L2|split; [exact Hb|split; [|apply image_text_valid, Ht]]]]|].
    { rewrite Es, E3. apply image_plain. destruct (parsed_instruction unq W d V E _ Hi) as (p & w & _ & Hw). cbn [instruction_at] in Hw.
      destruct Hw as (kw & fl & k & g & img & al & _ & _ & _ & _ & _ & Him & -> & _). exact Him. }
    rewrite content_W. rewrite Es. cbn [s_start s_end]. rewrite E1, E2. split; [exact Vn|]. rewrite Hn. f_equal. f_equal.
    + rewrite El, map_app. cbn [map].
      assert (Out : forall j, In j l1 \/ In j l2 -> changed_instruction (NewImage (Span (length pre) (length pre + length (ss_content (from_image f)))) t r) j =
        move_instruction (replacement (length pre) (length pre + length (ss_content (from_image f))) (length t)) j).
      { intros j Hj. pose proof (place_alone _ _ _ _ El (image_place f) j Hj) as N. destruct j as [f'| | | | | | | |]; try reflexivity.
        cbn [changed_instruction]. match goal with |- context [span_eq_dec ?a ?b] => destruct (span_eq_dec a b) as [K|_]; [|reflexivity] end.
        exfalso. apply N. rewrite Es, <- K. apply image_place. }
      f_equal; [apply map_ext_in; intros j Hj; symmetry; apply Out; auto|]. f_equal; [|apply map_ext_in; intros j Hj; symmetry; apply Out; auto].
      cbn [changed_instruction]. match goal with |- context [span_eq_dec ?a ?b] => destruct (span_eq_dec a b) as [_|K]; [reflexivity|congruence] end.
  - destruct H as (Ht & f & al & Hi & Hal & <-). destruct (in_split _ _ Hi) as (l1 & l2 & El).
    destruct (parse_alias_moved unq W d l1 f l2 al V E El Hal) as (pre & post & Ei & Hne & Es & _ & K).
    destruct (K t Ht _ eq_refl) as [Vn Hn]. clear K.
    destruct (place_bounded _ _ Hi (alias_place f al Hal)) as (L1 & L2 & Hb). destruct (around_text _ _ _ Ei) as (E1 & E2 & E3).
    split; [split; [exact L1|split; [exact L2|split; [exact Hb|split; [|apply alias_valid, Ht]]]]|].
    { rewrite Es, E3. apply image_plain, alias_image, Hne. }
    rewrite content_W. rewrite Es. cbn [s_start s_end]. rewrite E1, E2. split; [exact Vn|]. rewrite Hn. f_equal. f_equal.
    + rewrite El, map_app. cbn [map].
      assert (Out : forall j, In j l1 \/ In j l2 -> changed_instruction (NewAlias (Span (length pre) (length pre + length (ss_content al))) t) j =
        move_instruction (replacement (length pre) (length pre + length (ss_content al)) (length t)) j).
      { intros j Hj. pose proof (place_alone _ _ _ _ El (alias_place f al Hal) j Hj) as N. destruct j as [f'| | | | | | | |]; try reflexivity.
        cbn [changed_instruction]. destruct (from_alias f') as [al'|] eqn:Ea; [|reflexivity].
        match goal with |- context [span_eq_dec ?a ?b] => destruct (span_eq_dec a b) as [K|_]; [|reflexivity] end.
        exfalso. apply N. rewrite Es, <- K. apply alias_place. exact Ea. }
      f_equal; [apply map_ext_in; intros j Hj; symmetry; apply Out; auto|]. f_equal; [|apply map_ext_in; intros j Hj; symmetry; apply Out; auto].
      cbn [changed_instruction]. rewrite Hal. match goal with |- context [span_eq_dec ?a ?b] => destruct (span_eq_dec a b) as [_|K]; [reflexivity|congruence] end.
  - destruct H as (HY & HX & L2 & (a & Ha) & HQ). rewrite content_W in *. pose proof (text_nonempty _ _ (proj1 (proj2 HX))) as L1.
    destruct (text_split W sp ltac:(lia) L2) as (Ei & La & Lt).
    pose proof V as V2. pose proof E as E2. rewrite Ei in V2, E2. rewrite Ha, <- app_assoc in V2, E2.
    assert (Va : valid_utf8 (firstn (s_start sp) W) = true).
    { rewrite Ha. destruct (valid_utf8_cut _ V2 a ([EQUALS] ++ text_at W sp ++ skipn (s_end sp) W)) as [Vu _]; [reflexivity|reflexivity|].
      rewrite valid_utf8_app by exact Vu. reflexivity. }
    split.
    { split; [exact L1|]. split; [exact L2|]. split; [|split; [apply HX|apply HY]].
      rewrite (span_eta sp (length (firstn (s_start sp) W)) (length (firstn (s_start sp) W) + length (text_at W sp))) by lia.
      apply (boundaries _ _ _ Ei Va). apply HX. }
    destruct (parse_reworded unq a (text_at W sp) t (skipn (s_end sp) W) d V2 HX HY E2) as [Vn Hn].
    { rewrite (app_assoc a), <- Ha, La, Lt, <- Ei. intros i y Hi Hy Hr. exact (HQ i Hi y Hy Hr). }
    rewrite (app_assoc a) in Vn, Hn. rewrite <- Ha in Vn, Hn. rewrite La, Lt in Hn. split; [exact Vn|]. rewrite Hn. reflexivity.
  - destruct H as (HY & HX & Hb & Ha & i & Hi & Hl & L1 & L2 & HQ). rewrite content_W in *.
    pose proof (text_nonempty _ _ (proj1 (proj2 (proj1 HX)))) as L3.
    assert (Lb : s_end (instruction_span i) <= length W).
    { pose proof (C03_spans_sliceable unq W d i (instruction_part i) V E Hi (or_introl eq_refl)) as (_ & K & _). rewrite content_W in K. exact K. }
    destruct (text_split W sp ltac:(lia) ltac:(lia)) as (Ei & La & Lt).
    pose proof V as V2. pose proof E as E2. rewrite Ei in V2, E2.
    destruct (word_break _ Hb) as (u & z & Eu & Hz). destruct (break_not_letter z Hz) as [_ Hz2].
    assert (Va : valid_utf8 (firstn (s_start sp) W) = true).
    { rewrite Eu in *. destruct (valid_utf8_cut _ V2 u ([z] ++ text_at W sp ++ skipn (s_end sp) W)) as [Vu _];
        [rewrite <- app_assoc; reflexivity|exact Hz2|].
      rewrite valid_utf8_app by exact Vu. destruct (Swap.break_cases _ Hz) as [->|[->|[->| ->]]]; reflexivity. }
    split.
    { split; [exact L3|]. split; [lia|]. split; [|split; [apply HX|apply HY]].
      rewrite (span_eta sp (length (firstn (s_start sp) W)) (length (firstn (s_start sp) W) + length (text_at W sp))) by lia.
      apply (boundaries _ _ _ Ei Va). apply HX. }
    destruct (parse_argument unq (firstn (s_start sp) W) (text_at W sp) t (skipn (s_end sp) W) d i V2 HX HY Hb Ha E2 Hi Hl) as [Vn Hn];
      [rewrite La; exact L1|rewrite La, Lt; exact L2| |].
    { rewrite La, Lt, <- Ei. intros j y Hj Hy Hr.
      assert (Or : forall k, In k (d_instructions d) -> ordered (instruction_part k)).
      { intros k Hk x Hx. apply (C05_parts_in_order unq _ d k x V E Hk Hx). }
      destruct (selection_in _ _ y (places_selected [j])) as (j' & x & Hj2 & Hx & Ex); [cbn [flat_map]; rewrite app_nil_r; exact Hy|].
      destruct Hj2 as [<-|[]]. pose proof (within_inside _ (Or j Hj) x Hx) as I1. cbn [instruction_part part_span] in I1. rewrite <- Ex in I1.
      destruct (in_order_disjoint _ _ _ _ _ (C06_instructions_in_order unq W d V E) (in_map instruction_span _ _ Hj) (in_map instruction_span _ _ Hi)) as [Es|D].
      - assert (j = i) as ->; [|exact (HQ y Hy Hr)].
        destruct (in_split _ _ Hi) as (l1 & l2 & El). pose proof (C06_instructions_in_order unq W d V E) as Oi. rewrite El in Hj, Oi.
        pose proof (in_order_bounds _ _ _ _ (C06_instructions_in_order unq W d V E) (in_map instruction_span _ _ Hi)) as (_ & Ln & _).
        apply in_app_or in Hj. destruct Hj as [Hj|[Hj|Hj]]; [|congruence|]; exfalso.
        + rewrite map_app in Oi. apply SplicerFacts.in_order_app in Oi. destruct Oi as [_ Oi].
          specialize (Oi _ (or_introl eq_refl) _ (in_map _ _ _ Hj)). rewrite Es in Oi. lia.
        + replace (l1 ++ i :: l2) with ((l1 ++ [i]) ++ l2) in Oi by (rewrite <- app_assoc; reflexivity).
          rewrite map_app in Oi. apply SplicerFacts.in_order_app in Oi. destruct Oi as [_ Oi].
          specialize (Oi _ (in_map _ _ _ Hj) (instruction_span i) ltac:(apply in_map, in_or_app; right; left; reflexivity)). rewrite Es in Oi. lia.
      - exfalso. unfold around in Hr. rewrite andb_true_iff, !Nat.leb_le in Hr. unfold disjoint, inside in *. lia. }
    rewrite La, Lt in Hn. split; [exact Vn|]. rewrite Hn. reflexivity.
Qed.

(** ** A change further to the right *)

(** The bytes of the name of another instruction are letters, and there is no break in it. *)
Lemma name_apart x a b lo hi : In (IMisc x) (d_instructions d) -> word_before (firstn a W) -> s_start (misc_span x) < a -> a < b -> b <= lo -> lo < hi ->
  a <= length W -> around lo hi (ss_span (misc_name x)) = false.
Proof.
  intros Hi (u & z & Eu & Hz) L1 L2 L3 L4 L5. destruct (around lo hi (ss_span (misc_name x))) eqn:R; [|reflexivity]. exfalso.
  unfold around in R. rewrite andb_true_iff, !Nat.leb_le in R.
  destruct (parsed_instruction unq W d V E _ Hi) as (p & w & (pre & post & Ew & Ep & _) & K). cbn [instruction_at] in K.
  destruct K as (name & args & -> & Hn & _ & En & _ & Es). rewrite En in R. rewrite Es in L1. unfold at_ in *. cbn [ss_span s_start s_end] in *.
  assert (Nz : nth_error W (a - 1) = Some z).
  { rewrite <- (firstn_skipn a W), Eu. assert (length u = a - 1) as <-.
    { apply (f_equal (@length N)) in Eu. rewrite firstn_length, app_length in Eu. cbn [length] in Eu. lia. }
    rewrite <- app_assoc. rewrite nth_error_app2 by lia. rewrite Nat.sub_diag. reflexivity. }
  rewrite Ew in Nz. rewrite nth_error_app2 in Nz by lia. rewrite <- app_assoc, nth_error_app1 in Nz by lia. apply nth_error_In in Nz.
  destruct Hn as [_ Hn]. rewrite Forall_forall in Hn. specialize (Hn z Nz).
  assert (Swap.is_break z = true) as Hb by (unfold Swap.is_break; rewrite orb_true_iff; exact Hz).
  destruct (break_not_letter z Hb). congruence.
Qed.

Theorem change_kept c c' : can_make d c -> can_make d c' -> s_end (change_span c) <= s_start (change_span c') -> can_make (changed c' d) c.
Proof.
  intros H H' Lc. pose proof (change_step c H) as ((A1 & A2 & _ & A4 & _) & _). pose proof (change_step c' H') as ((B1 & B2 & _ & B4 & _) & _).
  set (lo := s_start (change_span c')) in *. set (hi := s_end (change_span c')) in *.
  assert (Below : move_span (change_offset c') (change_span c) = change_span c) by (apply span_below; lia).
  assert (Quotes : forall i, not_in_quotes W (change_span c) i -> not_in_quotes (changed_text c' W) (change_span c) (changed_instruction c' i)).
  { intros i HQ y Hy Hr Hq. rewrite changed_places in Hy. apply in_map_iff in Hy. destruct Hy as (y0 & <- & Hy).
    destruct (around_moved _ _ _ B1 _ _ _ A1 Lc Hr) as [Hr0 Ls]. apply (HQ y0 Hy Hr0).
    eapply quoted_moved; [exact B1| |exact Ls|exact Hq]. lia. }
  assert (Ll : lo <= length W) by lia.
  destruct c as [sp t r|sp t|sp t|sp t]; cbn [can_make change_span changed d_instructions d_content] in *; rewrite ?content_W in *.
  - destruct H as (Ht & f & Hi & Es). split; [exact Ht|]. destruct (changed_from c' f) as (f' & Ef & Ei & _). exists f'. split.
    + rewrite <- Ef. apply in_map. exact Hi.
    + rewrite Ei, Es. exact Below.
  - destruct H as (Ht & f & al & Hi & Hal & Es). split; [exact Ht|]. destruct (changed_from c' f) as (f' & Ef & _ & Ea).
    rewrite Hal in Ea. cbn [option_map] in Ea. destruct (from_alias f') as [al'|] eqn:Ea'; [|discriminate]. injection Ea as Ea.
    exists f', al'. split; [rewrite <- Ef; apply in_map; exact Hi|]. split; [exact Ea'|]. rewrite Ea, Es. exact Below.
  - destruct H as (HY & HX & L2 & (a & Ha) & HQ). split; [exact HY|]. unfold changed_text at 1. rewrite text_same by assumption.
    split; [exact HX|]. split; [unfold changed_text; rewrite app_length, firstn_length; fold lo; lia|].
    split; [exists a; unfold changed_text; rewrite text_front by (fold lo; lia); exact Ha|].
    intros i Hi. apply in_map_iff in Hi. destruct Hi as (i0 & <- & Hi). apply Quotes, HQ, Hi.
  - destruct H as (HY & HX & Hb & Ha & i & Hi & Hl & L1 & L2 & HQ). split; [exact HY|]. unfold changed_text at 1. rewrite text_same by assumption.
    split; [exact HX|]. split; [unfold changed_text; rewrite text_front by (fold lo; lia); exact Hb|]. split.
    + destruct (Nat.eq_dec (s_end sp) lo) as [El|Nl].
      * exfalso. destruct (text_split W (change_span c') ltac:(lia) ltac:(lia)) as (Ei & La & Lt). fold lo hi in Ei, La, Lt.
        rewrite El, Ei in Ha. rewrite skipn_app, La, Nat.sub_diag, skipn_all2 in Ha by lia. cbn [skipn app] in Ha.
        destruct (text_at W (change_span c')) as [|x w]; [cbn [length] in Lt; lia|]. cbn [app word_after] in Ha. inversion B4. congruence.
      * pose proof (text_nth W (change_text c') lo hi Ll (s_end sp) ltac:(lia)) as K. rewrite !nth_skipn in K.
        unfold changed_text. fold lo hi.
        destruct (skipn (s_end sp) (firstn lo W ++ change_text c' ++ skipn hi W)) as [|x w]; [exact I|].
        destruct (skipn (s_end sp) W) as [|x' w']; [discriminate|]. cbn [hd_error] in K. injection K as <-. exact Ha.
    + exists (changed_instruction c' i). split; [apply in_map; exact Hi|]. rewrite changed_span.
      assert (O1 : s_start (instruction_span i) <= lo) by lia. split; [|split; [|split]].
      * destruct (changed_cases c' i) as [->|[(f & f' & -> & _)|(sp' & t' & Ec & ->)]]; [destruct i; exact Hl|destruct Hl|].
        destruct i as [x|x|x|x|x|x|x|x|x]; try exact Hl. cbn [reword_instruction loose_instruction misc_name reword_string ss_content].
        unfold reword_text. assert (S' : sp' = change_span c') by (destruct Ec as [-> | ->]; reflexivity). rewrite S'. fold lo hi.
        rewrite (name_apart x (s_start sp) (s_end sp) lo hi Hi Hb L1 A1 Lc B1) by lia. exact Hl.
      * unfold move_span, change_offset. cbn [s_start]. rewrite (offset_below _ _ _ B1) by exact O1. exact L1.
      * unfold move_span, change_offset. cbn [s_end]. fold lo hi.
        destruct (Nat.le_gt_cases (s_end (instruction_span i)) lo) as [K|K]; [rewrite (offset_below _ _ _ B1) by exact K; exact L2|].
        pose proof (offset_above lo hi (length (change_text c')) B1 _ K). lia.
      * apply Quotes, HQ.
Qed.
End One.

(** ** Any number of changes *)

Lemma before_all c cs b len : in_order b len (map change_span cs) -> s_end (change_span c) <= b -> forall c', In c' cs -> s_end (change_span c) <= s_start (change_span c').
Proof. intros H L c' Hc. destruct (in_order_bounds _ _ _ _ H (in_map change_span _ _ Hc)) as (K & _). lia. Qed.

Theorem changes_made unq W d : valid_utf8 W = true -> parse unq W = Ok d -> forall cs b, in_order b (length W) (map change_span cs) -> b <= length W ->
  (forall c, In c cs -> can_make d c) ->
  valid_utf8 (d_content (all_changed cs d)) = true /\ parse unq (d_content (all_changed cs d)) = Ok (all_changed cs d) /\
  d_content (all_changed cs d) = firstn b W ++ replaced W b (map change_edit cs) /\
  forall c, can_make d c -> s_end (change_span c) <= b -> can_make (all_changed cs d) c.
Proof.
  intros V E cs. induction cs as [|c1 cs IH]; intros b Ho Hb Hc; cbn [all_changed fold_right map replaced].
  - rewrite (parse_content _ _ _ E). split; [exact V|]. split; [exact E|]. split; [symmetry; apply firstn_skipn|]. auto.
  - cbn [map in_order] in Ho. destruct Ho as (L1 & L2 & L3 & Ho). destruct (IH _ Ho L3) as (V' & E' & T' & K'); [intros c H; apply Hc; right; exact H|].
    fold (all_changed cs d). set (D := all_changed cs d) in *. pose proof (Hc c1 (or_introl eq_refl)) as H1. pose proof (K' c1 H1 (le_n _)) as H1'.
    destruct (change_step unq _ D V' E' c1 H1') as (_ & V2 & E2). cbn [changed d_content]. split; [exact V2|]. split; [exact E2|]. split.
    + unfold changed_text. rewrite T'. cbn [change_edit].
      set (a := s_start (change_span c1)) in *. set (e := s_end (change_span c1)) in *.
      rewrite firstn_app, firstn_firstn, firstn_length, Nat.min_l, Nat.min_l by lia. replace (a - e) with 0 by lia. rewrite firstn_O, app_nil_r.
      rewrite skipn_app, firstn_length, (Nat.min_l e) by lia. rewrite skipn_all2 by (rewrite firstn_length; lia). rewrite Nat.sub_diag. cbn [skipn app].
      rewrite (app_assoc (firstn b W)). f_equal. unfold slice. rewrite firstn_skipn_comm. replace (b + (a - b)) with a by lia.
      rewrite <- (firstn_skipn b (firstn a W)) at 1. rewrite firstn_firstn, Nat.min_l by lia. reflexivity.
    + intros c Hc0 Lc. apply (change_kept unq _ D V' E' c c1); [apply K'; [exact Hc0|lia]|exact H1'|lia].
Qed.
