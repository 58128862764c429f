(** Replacing a word of a command, of a COPY or of an unknown instruction (C77).  The
    notions used are those of SpecReword.v and SpecArgument.v. *)

From Coq Require Import String.
From Verif Require Import Bytes BytesFacts Grammar Peg Result Ast Splicer Image Convert Dockerfile Enquote
  SpecSplice SplicerFacts SpecClear SpecSyntax SpecMove SpecParts SpecDoc DocFacts ParseFacts SelectFacts PropsParse PropsDoc PropsEdit
  SpecReword RewordDoc RewordFacts PropsReword SpecArgument SwapParse Local ArgumentDoc.
Local Open Scope nat_scope.

(** ** The word anywhere in the instruction *)

Theorem C77_reworded unq a old new b d i : valid_utf8 (a ++ old ++ b) = true -> argument_word old -> argument_word new ->
  word_before a -> word_after b -> parse unq (a ++ old ++ b) = Ok d -> In i (d_instructions d) -> loose_instruction i ->
  s_start (instruction_span i) < length a -> length a + length old <= s_end (instruction_span i) ->
  (forall j sp, In j (d_instructions d) -> In sp (quotable_places j) -> around (length a) (length a + length old) sp = true ->
    ~ begins_quoted (text_at (a ++ old ++ b) sp)) ->
  valid_utf8 (a ++ new ++ b) = true /\
  parse unq (a ++ new ++ b) = Ok (reword_dockerfile (length a) (length a + length old) new (a ++ new ++ b) d).
Proof. apply parse_argument. Qed.

(** ** Through the splicer *)

Theorem C77_spliced unq input d l1 i l2 sp new : valid_utf8 input = true -> parse unq input = Ok d ->
  d_instructions d = l1 ++ i :: l2 -> loose_instruction i ->
  s_start (instruction_span i) < s_start sp -> s_end sp <= s_end (instruction_span i) ->
  word_before (firstn (s_start sp) input) -> word_after (skipn (s_end sp) input) ->
  argument_word (text_at input sp) -> argument_word new -> fits input [(sp, new)] ->
  (forall y, In y (quotable_places i) -> around (s_start sp) (s_end sp) y = true -> ~ begins_quoted (text_at input y)) ->
  exists st, splice (splicer_from d) sp new = Ok st /\
    sp_content st = firstn (s_start sp) input ++ new ++ skipn (s_end sp) input /\
    forall g, g = replacement (s_start sp) (s_end sp) (length new) ->
      parse unq (sp_content st) = Ok (Dockerfile (sp_content st) (map (move_arg g) (d_global_args d))
        (map (move_instruction g) l1 ++ reword_instruction (s_start sp) (s_end sp) new i :: map (move_instruction g) l2)).
Proof.
  intros V E El Hl L1 L2 Hb Ha HX HY Hf HQ. pose proof (parse_content _ _ _ E) as Ec.
  assert (Hi : In i (d_instructions d)) by (rewrite El; apply in_or_app; right; left; reflexivity).
  pose proof (length_pos _ (proj1 (proj2 (proj1 HX)))) as LX.
  assert (Lb : s_end (instruction_span i) <= length input).
  { pose proof (C03_spans_sliceable unq input d i (instruction_part i) V E Hi (or_introl eq_refl)) as (_ & K & _). rewrite Ec in K. exact K. }
  assert (Lt : s_start sp + length (text_at input sp) = s_end sp).
  { unfold text_at, slice in *. rewrite firstn_length, skipn_length in *. lia. }
  assert (Ei : input = firstn (s_start sp) input ++ text_at input sp ++ skipn (s_end sp) input).
  { unfold text_at, slice. rewrite <- (firstn_skipn (s_start sp) input) at 1. f_equal.
    rewrite <- (firstn_skipn (s_end sp - s_start sp) (skipn (s_start sp) input)) at 1. f_equal. rewrite skipn_skipn. f_equal. lia. }
  assert (La : length (firstn (s_start sp) input) = s_start sp) by (rewrite firstn_length; lia).
  assert (Or : forall k, In k (d_instructions d) -> ordered (instruction_part k)).
  { intros k Hk z Hz. apply (C05_parts_in_order unq _ d k z V E Hk Hz). }
  assert (Out : forall j y, In j l1 \/ In j l2 -> In y (within (instruction_part j)) -> around (s_start sp) (s_end sp) (part_span y) = false).
  { intros j y Hj Hy. assert (Hjd : In j (d_instructions d)) by (rewrite El; apply in_or_app; destruct Hj; [left|right; right]; assumption).
    pose proof (within_inside _ (Or j Hjd) y Hy) as I1. cbn [instruction_part part_span] in I1.
    pose proof (C06_instructions_in_order unq input d V E) as Oi. rewrite El, map_app in Oi. cbn [map] in Oi.
    assert (D : disjoint (instruction_span j) (instruction_span i)).
    { destruct Hj as [Hj|Hj].
      - apply in_order_app in Oi. destruct Oi as [_ Oi]. left. apply Oi; [left; reflexivity|apply in_map; exact Hj].
      - change (instruction_span i :: map instruction_span l2) with ([instruction_span i] ++ map instruction_span l2) in Oi.
        rewrite app_assoc in Oi. apply in_order_app in Oi. destruct Oi as [_ Oi]. right.
        apply Oi; [apply in_map; exact Hj|apply in_or_app; right; left; reflexivity]. }
    unfold around. destruct (Nat.leb_spec (s_start (part_span y)) (s_start sp)); [|reflexivity].
    destruct (Nat.leb_spec (s_end sp) (s_end (part_span y))); [|reflexivity]. unfold disjoint, inside in *. lia. }
  assert (Sl : sliceable input sp).
  { split; [lia|]. split; [lia|]. pose proof V as V3. rewrite Ei in V3.
    destruct (word_break _ Hb) as (u & z & Eu & Hz). destruct (break_not_letter z Hz) as [_ Hz2].
    assert (Va : valid_utf8 (firstn (s_start sp) input) = true).
    { rewrite Eu in *. destruct (valid_utf8_cut _ V3 u ([z] ++ text_at input sp ++ skipn (s_end sp) input)) as [Vu _];
        [rewrite <- app_assoc; reflexivity|exact Hz2|].
      rewrite valid_utf8_app by exact Vu. destruct (Swap.break_cases _ Hz) as [->|[->|[->| ->]]]; reflexivity. }
    rewrite valid_utf8_app in V3 by exact Va. pose proof V3 as V4. rewrite valid_utf8_app in V4 by apply HX. rewrite Ei. split.
    - pose proof (boundary_of_app (firstn (s_start sp) input) _ V3) as K. rewrite La in K. exact K.
    - pose proof (boundary_of_app (firstn (s_start sp) input ++ text_at input sp) _ V4) as K.
      rewrite app_length, La, Lt, <- app_assoc in K. exact K. }
  destruct (splice_alone unq input d sp new V E Sl ltac:(lia) (proj1 (proj1 HY)) Hf) as (st & Es & Et).
  exists st. split; [exact Es|]. split; [exact Et|]. intros g ->. rewrite Et.
  pose proof V as V2. pose proof E as E2. rewrite Ei in V2, E2.
  destruct (parse_argument unq (firstn (s_start sp) input) (text_at input sp) new (skipn (s_end sp) input) d i V2 HX HY Hb Ha E2 Hi Hl) as [_ K];
    [rewrite La; exact L1|rewrite La, Lt; exact L2| |].
  { rewrite La, Lt, <- Ei. intros j y Hj Hy Hr. rewrite El in Hj. apply in_app_or in Hj.
    assert (Hj' : j = i \/ (In j l1 \/ In j l2)) by (destruct Hj as [Hj|[Hj|Hj]]; auto). destruct Hj' as [->|Hj']; [apply HQ; assumption|].
    destruct (selection_in _ _ y (places_selected [j])) as (j' & z & Hj2 & Hz & Ez); [cbn [flat_map]; rewrite app_nil_r; exact Hy|].
    destruct Hj2 as [<-|[]]. rewrite Ez, (Out j z Hj' Hz) in Hr. discriminate. }
  rewrite La, Lt in K. rewrite K. f_equal. unfold reword_dockerfile. f_equal.
  - apply map_ext_in. intros x Hx. apply away_arg. intros y Hy.
    destruct (C09_global_args unq input d E) as (pre & (post & Ep & _) & Eg). rewrite Eg in Hx.
    assert (Hxd : In (IArg x) (d_instructions d)).
    { rewrite Ep. apply in_or_app. left. apply in_flat_map in Hx. destruct Hx as (j & Hj & Hx).
      destruct j; try destruct Hx as [->|[]]; try destruct Hx; exact Hj. }
    assert (Hne : IArg x <> i) by (intros <-; exact Hl). rewrite El in Hxd. apply in_app_or in Hxd.
    apply (Out (IArg x)); [|exact Hy]. destruct Hxd as [K'|[K'|K']]; [left; exact K'|congruence|right; exact K'].
  - rewrite El, map_app. cbn [map].
    f_equal; [|f_equal]; apply map_ext_in; intros j Hj; apply away_instruction; intros y Hy; apply (Out j); auto.
Qed.

(** ** The paths of a COPY *)

(** What follows an instruction: nothing, a blank or a newline *)
Definition ended (b : bytes) : Prop := match b with c :: _ => is_blank c = true \/ is_newline_byte c = true | [] => True end.

Lemma document_places unq p w l : document_at unq p w l -> forall i, In i l ->
  exists pre v post, w = pre ++ v ++ post /\ instruction_at unq (p + length pre) v i /\ ended post.
Proof.
  assert (Line : forall p w l, line_at unq p w l -> forall i, In i l ->
    exists pre v post, w = pre ++ v ++ post /\ instruction_at unq (p + length pre) v i /\ blanks post).
  { intros p' w' l' [q b _|q b t _ _|q b v b2 i' _ Hi Hb]; intros i Hin; [destruct Hin|destruct Hin|].
    destruct Hin as [<-|[]]. exists b, v, b2. auto. }
  intros H. induction H as [p w l Hl|p w n w2 l l2 Hl Hn _ IH]; intros i Hi.
  - destruct (Line _ _ _ Hl i Hi) as (pre & v & post & E & K & B). exists pre, v, post. split; [exact E|]. split; [exact K|].
    destruct post as [|c post]; [exact I|]. left. unfold blanks in B. inversion B. assumption.
  - apply in_app_or in Hi. destruct Hi as [Hi|Hi].
    + destruct (Line _ _ _ Hl i Hi) as (pre & v & post & -> & K & B). exists pre, v, (post ++ n ++ w2).
      split; [rewrite <- !app_assoc; reflexivity|]. split; [exact K|]. destruct post as [|c post]; cbn [app].
      * destruct Hn; right; reflexivity.
      * left. unfold blanks in B. inversion B. assumption.
    + destruct (IH i Hi) as (pre & v & post & -> & K & B). exists (w ++ n ++ pre), v, post.
      split; [rewrite <- !app_assoc; reflexivity|]. split; [|exact B].
      replace (p + length (w ++ n ++ pre)) with (p + length w + length n + length pre) by (rewrite !app_length; lia). exact K.
Qed.

Lemma ended_plain b : ended b -> word_after b.
Proof.
  destruct b as [|c b]; [trivial|]. intros H. unfold word_after, plain_byte. destruct H as [-> | ->]; [reflexivity|]. rewrite orb_true_r. reflexivity.
Qed.

Lemma spaced_after unq p w l b : spaced (path_at unq) p w l -> ended b -> word_after (w ++ b).
Proof.
  intros [|p' k g v x w2 l' Hg Hn _ _] Hb; [apply ended_plain; exact Hb|].
  destruct g as [|c g]; [congruence|]. cbn [app word_after]. destruct (SwapParse.gap_head _ _ _ Hg) as [H| ->]; [unfold plain_byte; rewrite H|]; reflexivity.
Qed.

Lemma gap_before k g (a : bytes) : gap k g -> g <> [] -> word_before (a ++ g).
Proof.
  intros Hg Hn. destruct (gap_ends _ _ Hg) as [->|(u & z & -> & Hz)]; [congruence|].
  exists (a ++ u), z. split; [apply app_assoc|]. unfold Swap.is_break in Hz. apply orb_prop. exact Hz.
Qed.

(** A path stands in the text between breaks. *)
Lemma spaced_words unq p w l : spaced (path_at unq) p w l -> forall a b, p = length a -> ended b -> forall y, In y l ->
  exists a' v b', a ++ w ++ b = a' ++ v ++ b' /\ length a < length a' /\ length a' + length v <= length a + length w /\
    ss_span y = at_ (length a') v /\ word v /\ word_before a' /\ word_after b'.
Proof.
  intros H. induction H as [|p k g v x w2 l Hg Hn Hx Hs IH]; intros a b -> Hb y Hy; [destruct Hy|]. destruct Hy as [<-|Hy].
  - destruct Hx as [Hv (c & _ & Hx)]. exists (a ++ g), v, (w2 ++ b). split; [rewrite <- !app_assoc; reflexivity|]. rewrite !app_length.
    pose proof (length_pos _ Hn). split; [lia|]. split; [lia|]. split; [rewrite Hx; reflexivity|]. split; [exact Hv|].
    split; [eapply gap_before; eassumption|eapply spaced_after; eassumption].
  - destruct (IH (a ++ g ++ v) b) with (y := y) as (a' & v' & b' & E & L1 & L2 & Es & K); [rewrite !app_length; lia|exact Hb|exact Hy|].
    exists a', v', b'. rewrite !app_length in *. split; [rewrite <- E, <- !app_assoc; reflexivity|]. split; [lia|]. split; [lia|]. auto.
Qed.

Lemma copy_words unq input d x y : valid_utf8 input = true -> parse unq input = Ok d -> In (ICopy x) (d_instructions d) ->
  In y (copy_sources x ++ [copy_destination x]) ->
  s_start (copy_span x) < s_start (ss_span y) /\ s_end (ss_span y) <= s_end (copy_span x) /\
  word_before (firstn (s_start (ss_span y)) input) /\ word_after (skipn (s_end (ss_span y)) input).
Proof.
  intros V E Hi Hy. destruct (parsed_document unq input d V E) as [_ Hd].
  destruct (document_places _ _ _ _ Hd _ Hi) as (pre & w & post & Ei & K & Hp). cbn [instruction_at plus] in K.
  destruct K as (kw & fl & paths & -> & _ & _ & Hs & _ & Esp).
  destruct (spaced_words _ _ _ _ Hs (pre ++ kw ++ fl) post) with (y := y) as (a' & v & b' & Ea & L1 & L2 & -> & _ & Hb & Ha);
    [rewrite !app_length; lia|exact Hp|exact Hy|].
  assert (E2 : input = a' ++ v ++ b') by (rewrite <- Ea, Ei, <- !app_assoc; reflexivity).
  rewrite Esp. unfold at_. cbn [s_start s_end]. rewrite !app_length in *. split; [lia|]. split; [lia|]. split.
  - rewrite E2, firstn_app, firstn_all, Nat.sub_diag. cbn [firstn]. rewrite app_nil_r. exact Hb.
  - rewrite E2, app_assoc, <- app_length, skipn_app, skipn_all, Nat.sub_diag. exact Ha.
Qed.

(** Any path of a COPY, source or destination, can be replaced by another word; the
    other paths and the flags stay. *)
Theorem C77_copy_path unq input d l1 x l2 m1 y m2 new : valid_utf8 input = true -> parse unq input = Ok d ->
  d_instructions d = l1 ++ ICopy x :: l2 -> copy_sources x ++ [copy_destination x] = m1 ++ y :: m2 ->
  argument_word (text_at input (ss_span y)) -> argument_word new -> fits input [(ss_span y, new)] ->
  exists st, splice (splicer_from d) (ss_span y) new = Ok st /\
    sp_content st = firstn (s_start (ss_span y)) input ++ new ++ skipn (s_end (ss_span y)) input /\
    forall g, g = replacement (s_start (ss_span y)) (s_end (ss_span y)) (length new) ->
      exists x', parse unq (sp_content st) = Ok (Dockerfile (sp_content st) (map (move_arg g) (d_global_args d))
          (map (move_instruction g) l1 ++ ICopy x' :: map (move_instruction g) l2)) /\
        copy_span x' = move_span g (copy_span x) /\ copy_flags x' = map (move_flag g) (copy_flags x) /\
        length (copy_sources x') = length (copy_sources x) /\
        copy_sources x' ++ [copy_destination x'] = map (move_string g) m1 ++
          SpannedString (Span (s_start (ss_span y)) (s_start (ss_span y) + length new)) new :: map (move_string g) m2.
Proof.
  intros V E El Em HX HY Hf. pose proof (parse_content _ _ _ E) as Ec.
  assert (Hi : In (ICopy x) (d_instructions d)) by (rewrite El; apply in_or_app; right; left; reflexivity).
  destruct (copy_words unq input d x y V E Hi) as (L1 & L2 & Hb & Ha); [rewrite Em; apply in_or_app; right; left; reflexivity|].
  assert (Ep : parts (ICopy x) = map flag_part (copy_flags x) ++ map string_part m1 ++ string_part y :: map string_part m2).
  { cbn [parts]. f_equal. change [string_part (copy_destination x)] with (map string_part [copy_destination x]).
    rewrite <- map_app, Em, map_app. reflexivity. }
  assert (Or : ordered (instruction_part (ICopy x))).
  { intros z Hz. apply (C05_parts_in_order unq _ d _ z V E Hi Hz). }
  assert (Ne : s_start (ss_span y) < s_end (ss_span y)).
  { pose proof (length_pos _ (proj1 (proj2 (proj1 HX)))) as LX. unfold text_at, slice in LX. rewrite firstn_length in LX. lia. }
  (* the other parts are elsewhere *)
  assert (Far : forall z z', In z (map flag_part (copy_flags x) ++ map string_part m1) \/ In z (map string_part m2) -> In z' (within z) ->
    around (s_start (ss_span y)) (s_end (ss_span y)) (part_span z') = false).
  { intros z z' Hz Hz'. pose proof (Or _ (or_introl eq_refl)) as O. cbn [instruction_part part_sub part_span] in O. rewrite Ep in O.
    assert (Hzp : In z (parts (ICopy x))) by (rewrite Ep; destruct Hz as [Hz|Hz]; [apply in_app_or in Hz; destruct Hz|]; rewrite !in_app_iff; cbn [In]; auto).
    assert (Oz : ordered z).
    { intros t Ht. apply Or. right. apply in_flat_map. exists z. split; [exact Hzp|exact Ht]. }
    pose proof (within_inside _ Oz z' Hz') as I1.
    assert (D : s_end (part_span z) <= s_start (ss_span y) \/ s_end (ss_span y) <= s_start (part_span z)).
    { rewrite app_assoc, map_app in O. cbn [map] in O. destruct Hz as [Hz|Hz].
      - left. apply in_order_app in O. destruct O as [_ O]. apply O; [left; reflexivity|apply in_map; exact Hz].
      - right. change (part_span (string_part y) :: map part_span (map string_part m2)) with ([ss_span y] ++ map part_span (map string_part m2)) in O.
        rewrite app_assoc in O. apply in_order_app in O. destruct O as [_ O].
        apply O; [apply in_map; exact Hz|apply in_or_app; right; left; reflexivity]. }
    unfold around. destruct (Nat.leb_spec (s_start (part_span z')) (s_start (ss_span y))); [|reflexivity].
    destruct (Nat.leb_spec (s_end (ss_span y)) (s_end (part_span z'))); [|reflexivity]. unfold inside in *. lia. }
  assert (Hm1 : map (reword_string (s_start (ss_span y)) (s_end (ss_span y)) new) m1 =
    map (move_string (replacement (s_start (ss_span y)) (s_end (ss_span y)) (length new))) m1).
  { apply map_ext_in. intros z Hz. apply away_string. intros t Ht. apply (Far (string_part z)); [|exact Ht].
    left. apply in_or_app. right. apply in_map. exact Hz. }
  assert (Hm2 : map (reword_string (s_start (ss_span y)) (s_end (ss_span y)) new) m2 =
    map (move_string (replacement (s_start (ss_span y)) (s_end (ss_span y)) (length new))) m2).
  { apply map_ext_in. intros z Hz. apply away_string. intros t Ht. apply (Far (string_part z)); [|exact Ht].
    right. apply in_map. exact Hz. }
  assert (Hfl : map (reword_flag (s_start (ss_span y)) (s_end (ss_span y)) new) (copy_flags x) =
    map (move_flag (replacement (s_start (ss_span y)) (s_end (ss_span y)) (length new))) (copy_flags x)).
  { apply map_ext_in. intros z Hz. apply away_flag. intros t Ht. apply (Far (flag_part z)); [|exact Ht].
    left. apply in_or_app. left. apply in_map. exact Hz. }
  destruct (C77_spliced unq input d l1 (ICopy x) l2 (ss_span y) new V E El I L1 L2 Hb Ha HX HY Hf) as (st & Es & Et & K).
  { intros sp Hsp Hr.
    destruct (SpecSplice.span_eq_dec sp (ss_span y)) as [->|Hne].
    - pose proof (plain_unquoted _ (proj1 HX)) as [_ Hq]. intros Hb'. apply (Sound.starts_quoted_spec (fun _ => None) []) in Hb'. congruence.
    - exfalso. cbn [quotable_places] in Hsp.
      change [ss_span (copy_destination x)] with (string_places [copy_destination x]) in Hsp. unfold string_places in Hsp. rewrite <- map_app, Em, map_app in Hsp.
      cbn [map] in Hsp. rewrite !in_app_iff in Hsp. cbn [In] in Hsp.
      assert (Hz : exists z z', (In z (map flag_part (copy_flags x) ++ map string_part m1) \/ In z (map string_part m2)) /\ In z' (within z) /\ sp = part_span z').
      { destruct Hsp as [Hsp|[Hsp|[Hsp|Hsp]]].
        - apply in_flat_map in Hsp. destruct Hsp as (f & Hf' & Hsp). exists (flag_part f).
          destruct Hsp as [<-|[<-|[]]]; [exists (string_part (fl_name f))|exists (string_part (fl_value f))];
            (split; [left; apply in_or_app; left; apply in_map; exact Hf'|split; [|reflexivity]]); cbn; auto.
        - apply in_map_iff in Hsp. destruct Hsp as (z & <- & Hz). exists (string_part z), (string_part z).
          split; [left; apply in_or_app; right; apply in_map; exact Hz|]. split; [left; reflexivity|reflexivity].
        - congruence.
        - apply in_map_iff in Hsp. destruct Hsp as (z & <- & Hz). exists (string_part z), (string_part z).
          split; [right; apply in_map; exact Hz|]. split; [left; reflexivity|reflexivity]. }
      destruct Hz as (z & z' & Hz & Hz' & ->). rewrite (Far z z' Hz Hz') in Hr. discriminate. }
  exists st. split; [exact Es|]. split; [exact Et|]. intros g Eg. specialize (K g Eg). eexists. split; [exact K|]. rewrite Eg.
  cbn [copy_span copy_flags copy_sources copy_destination]. split; [reflexivity|]. split; [exact Hfl|]. split; [apply map_length|].
  change [reword_string (s_start (ss_span y)) (s_end (ss_span y)) new (copy_destination x)]
    with (map (reword_string (s_start (ss_span y)) (s_end (ss_span y)) new) [copy_destination x]).
  rewrite <- map_app, Em, map_app. cbn [map]. rewrite Hm1, Hm2. f_equal. f_equal.
  apply (C74_new_string unq input d (ICopy x) y new V E Hi); [|exact (proj1 HX)].
  right. apply in_flat_map. exists (string_part y). split; [|left; reflexivity]. cbn [instruction_part part_sub]. rewrite Ep.
  rewrite !in_app_iff. cbn [In]. auto.
Qed.

(** ** Cases *)

Ltac argument := split; [split; [vm_compute; reflexivity|]; split; [discriminate|]; split; [repeat constructor|intros (? & K); vm_compute in K; discriminate]|];
  repeat split; try (intros (? & K); vm_compute in K; discriminate); intros ? K; vm_compute in K; discriminate.

(** A word of a command on a line of its own, after a comment *)
Definition shell_before : bytes := bs "FROM a" ++ [LF] ++ bs "RUN make \" ++ [LF] ++ bs "# c" ++ [LF] ++ bs "  ".
Definition shell_after : bytes := bs " \" ++ [LF] ++ bs " x=""y z""" ++ [LF] ++ bs "LABEL k=v".
Example C77_case : argument_word (bs "all") /\ argument_word (bs "-j4=]#") /\ word_before shell_before /\ word_after shell_after /\
  exists d d' x, parse enquote_unquote (shell_before ++ bs "all" ++ shell_after) = Ok d /\
  In (IRun x) (d_instructions d) /\ loose_instruction (IRun x) /\ s_start (run_span x) < length shell_before /\
  length shell_before + length (bs "all") <= s_end (run_span x) /\
  (forall i sp, In i (d_instructions d) -> In sp (quotable_places i) ->
    around (length shell_before) (length shell_before + length (bs "all")) sp = true ->
    ~ begins_quoted (text_at (shell_before ++ bs "all" ++ shell_after) sp)) /\
  parse enquote_unquote (shell_before ++ bs "-j4=]#" ++ shell_after) = Ok d' /\
  map instruction_span (d_instructions d) = [Span 0 6; Span 7 38; Span 39 48] /\
  map instruction_span (d_instructions d') = [Span 0 6; Span 7 41; Span 42 51] /\
  match d_instructions d' with
  | [_; IRun (RunInstruction _ (Shell s)); _] =>
    map (fun c => match c with BString x => ss_content x | BComment x => sc_content x end) (br_components s) =
      [bs "make "; bs "# c"; bs "  -j4=]# "; bs " x=""y z"""]
  | _ => False
  end.
Proof.
  split; [argument|]. split; [argument|].
  split; [exists (bs "FROM a" ++ [LF] ++ bs "RUN make \" ++ [LF] ++ bs "# c" ++ [LF] ++ bs " "), 32%N; split; [vm_compute; reflexivity|left; reflexivity]|].
  split; [vm_compute; reflexivity|]. eexists. eexists. eexists. split; [vm_compute; reflexivity|]. split; [right; left; reflexivity|].
  split; [exact I|]. split; [vm_compute; lia|]. split; [vm_compute; lia|]. split.
  - intros i sp Hi Hsp Ha. vm_compute in Hi.
    repeat (destruct Hi as [<-|Hi]; [vm_compute in Hsp; repeat (destruct Hsp as [<-|Hsp]; [vm_compute in Ha; discriminate|]); destruct Hsp|]). destruct Hi.
  - split; [vm_compute; reflexivity|]. vm_compute. auto.
Qed.

(** Paths of a COPY, and a word of another instruction *)
Definition copying : bytes := lines ["FROM a"; "COPY --chown=u src lib /app/"; "EXPOSE 80 443"]%string.
Example C77_copy_case :
  reads copying (fun d => match d_instructions d with
    | [_; ICopy x; IMisc y] => map ss_span (copy_sources x ++ [copy_destination x]) = [Span 22 25; Span 26 29; Span 30 35] /\ loose_instruction (IMisc y) /\
        s_start (misc_span y) < 43 /\ 45 <= s_end (misc_span y)
    | _ => False end) /\
  Forall argument_word [text_at copying (Span 22 25); text_at copying (Span 26 29); text_at copying (Span 30 35); text_at copying (Span 43 45)] /\
  word_before (firstn 43 copying) /\ word_after (skipn 45 copying) /\
  argument_word (bs "libs/*") /\ fits copying [(Span 26 29, bs "libs/*")] /\
  reads (firstn 26 copying ++ bs "libs/*" ++ skipn 29 copying) (fun d => match d_instructions d with
    | [_; ICopy x; IMisc y] => map ss_content (copy_sources x ++ [copy_destination x]) = [bs "src"; bs "libs/*"; bs "/app/"] /\ map ss_span (copy_sources x ++ [copy_destination x]) = [Span 22 25; Span 26 32; Span 33 38]
    | _ => False end) /\
  reads (firstn 43 copying ++ bs "8080" ++ skipn 45 copying) (fun d => match d_instructions d with
    | [_; ICopy x; IMisc y] => map (fun c => match c with BString x => ss_content x | BComment x => sc_content x end) (br_components (misc_arguments y)) = [bs " 8080 443"]
    | _ => False end).
Proof.
  split; [split; [vm_compute; reflexivity|]; eexists; split; [vm_compute; reflexivity|]|].
  { split; [reflexivity|]. split; [cbn [loose_instruction sought_words]; repeat constructor; vm_compute; discriminate|]. vm_compute. lia. }
  split; [repeat apply Forall_cons; try apply Forall_nil; argument|].
  split; [exists (firstn 42 copying), 32%N; split; [vm_compute; reflexivity|left; reflexivity]|]. split; [vm_compute; reflexivity|].
  split; [argument|]. split; [vm_compute; reflexivity|].
  split; (split; [vm_compute; reflexivity|]; eexists; split; [vm_compute; reflexivity|vm_compute; auto]).
Qed.

(** Why the word may not begin in these ways: a list, a flag, a comment *)
Definition shape (s : bytes) : list (nat * nat) :=
  match parse enquote_unquote s with
  | Ok d => map (fun i => match i with
      | IRun (RunInstruction _ (Shell b)) => (1, length (br_components b))
      | IRun (RunInstruction _ (Exec l)) => (2, length (sa_elements l))
      | ICopy x => (length (copy_flags x), length (copy_sources x))
      | _ => (0, 0) end) (d_instructions d)
  | _ => []
  end.
Example C77_list_case : shape (bs "RUN x ]") = [(1, 1)] /\ shape (bs "RUN [ ]") = [(2, 0)].
Proof. vm_compute. auto. Qed.
Example C77_flag_case : shape (bs "COPY a b c") = [(0, 2)] /\ shape (bs "COPY --x=a b c") = [(1, 1)].
Proof. vm_compute. auto. Qed.
Example C77_comment_case : shape (bs "COPY a b \" ++ [LF] ++ bs "c \" ++ [LF] ++ bs "d") = [(0, 3)] /\
  shape (bs "COPY a b \" ++ [LF] ++ bs "#c \" ++ [LF] ++ bs "d") = [(0, 2)].
Proof. vm_compute. auto. Qed.

Print Assumptions C77_reworded.
Print Assumptions C77_spliced.
Print Assumptions C77_copy_path.
