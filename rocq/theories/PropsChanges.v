(** Changes of several kinds made to one document through the splicer (C79).  The notions
    used are those of SpecChanges.v. *)

From Coq Require Import String Permutation.
From Verif Require Import Bytes BytesFacts Grammar Peg Result Ast Splicer Image Convert Dockerfile Enquote
  SpecImage SpecSplice SplicerFacts SpecSyntax SpecMove SpecParts SpecDoc SpecReword SpecArgument SpecAlias SpecChanges
  PartsFacts DocFacts ParseFacts SelectFacts PropsParse PropsDoc PropsEdit ParseEdit RewordDoc RewordFacts ArgumentDoc AliasDoc NamesFacts PropsAlias
  PropsReword PropsArgument ChangesFacts ChangesNames Stage SpecStage StageFacts PropsStage SpecRename PropsRename.
From Verif Require Sound EqSwap.
Local Open Scope nat_scope.

(** ** Any number of changes, in any order *)

Theorem C79_changes unq input d cs ops : valid_utf8 input = true -> parse unq input = Ok d ->
  in_order 0 (length input) (map change_span cs) -> (forall c, In c cs -> can_make d c) ->
  fits input (map change_edit cs) -> Permutation (map change_edit cs) ops ->
  exists st, splice_all (splicer_from d) ops = Ok st /\ valid_utf8 (sp_content st) = true /\
    parse unq (sp_content st) = Ok (all_changed cs d).
Proof.
  intros V E Ho Hc Hf Hp. destruct (changes_made unq input d V E cs 0 Ho ltac:(lia) Hc) as (V' & E' & T' & _). cbn [firstn app] in T'.
  assert (Em : map fst (map change_edit cs) = map change_span cs) by (rewrite map_map; reflexivity).
  destruct (splice_disjoint input (map change_edit cs) ops V) as (st & Es & Et & Eu); [rewrite Em; exact Ho| |exact Hf|exact Hp|].
  { intros e He. apply in_map_iff in He. destruct He as (c & <- & Hi). destruct (change_step unq input d V E c (Hc c Hi)) as ((_ & _ & B & _ & T) & _).
    split; [exact B|exact T]. }
  exists st. split; [unfold splicer_from; rewrite (parse_content _ _ _ E); exact Es|]. split; [exact Eu|]. rewrite Et, <- T'. exact E'.
Qed.

(** ** An instruction that no change is made in only moves *)

Lemma offset_disjoint lo hi n a b : lo < hi -> a < b -> (b <= lo \/ hi <= a) ->
  replacement lo hi n a < replacement lo hi n b.
Proof. intros H H1 H2. unfold replacement. destruct (Nat.leb_spec a lo), (Nat.leb_spec b lo); lia. Qed.

Lemma moved_alone unq W d c i : valid_utf8 W = true -> parse unq W = Ok d -> can_make d c -> In i (d_instructions d) ->
  disjoint (change_span c) (instruction_span i) -> changed_instruction c i = move_instruction (change_offset c) i.
Proof.
  intros V E Hc Hi D. destruct (change_step unq W d V E c Hc) as ((L1 & _) & _).
  assert (Or : ordered (instruction_part i)).
  { intros z Hz. apply (C05_parts_in_order unq _ d i z V E Hi Hz). }
  assert (Out : forall y, In y (within (instruction_part i)) -> around (s_start (change_span c)) (s_end (change_span c)) (part_span y) = false).
  { intros y Hy. pose proof (within_inside _ Or y Hy) as I1. cbn [instruction_part part_span] in I1. unfold around.
    destruct (Nat.leb_spec (s_start (part_span y)) (s_start (change_span c))); [|reflexivity].
    destruct (Nat.leb_spec (s_end (change_span c)) (s_end (part_span y))); [|reflexivity]. unfold disjoint, inside in *. lia. }
  assert (Pl : ~ In (change_span c) (quotable_places i)).
  { intros K. destruct (selection_in _ _ (change_span c) (places_selected [i])) as (j & z & Hj & Hz & Ez); [cbn [flat_map]; rewrite app_nil_r; exact K|].
    destruct Hj as [<-|[]]. specialize (Out z Hz). rewrite <- Ez in Out. unfold around in Out. rewrite !Nat.leb_refl in Out. discriminate. }
  destruct c as [sp t r|sp t|sp t|sp t]; cbn [change_span] in *.
  - destruct i as [f| | | | | | | |]; try reflexivity. cbn [changed_instruction].
    destruct (span_eq_dec (ss_span (from_image f)) sp) as [K|_]; [|reflexivity]. exfalso. apply Pl. rewrite <- K. apply image_place.
  - destruct i as [f| | | | | | | |]; try reflexivity. cbn [changed_instruction]. destruct (from_alias f) as [al|] eqn:Ea; [|reflexivity].
    destruct (span_eq_dec (ss_span al) sp) as [K|_]; [|reflexivity]. exfalso. apply Pl. rewrite <- K. apply alias_place. exact Ea.
  - cbn [changed_instruction]. unfold change_offset. cbn [change_span change_text]. apply away_instruction. exact Out.
  - cbn [changed_instruction]. unfold change_offset. cbn [change_span change_text]. apply away_instruction. exact Out.
Qed.

Lemma after_disjoint es b len sp y : in_order b len (map fst es) -> s_start sp <= s_end sp -> s_start y <= s_end y -> s_end sp <= b ->
  disjoint sp y -> disjoint sp (move_span (after_edits es) y).
Proof.
  intros H L1 Ly L2 D. unfold disjoint, move_span in *. cbn [s_start s_end]. destruct D as [D|D].
  - left. destruct (Nat.le_gt_cases (s_start y) b) as [K|K]; [rewrite (proj1 (after_low _ _ _ H _) K); exact D|].
    pose proof (proj2 (after_low _ _ _ H (s_start y)) ltac:(lia)). lia.
  - right. rewrite (proj1 (after_low _ _ _ H (s_end y)) ltac:(lia)). exact D.
Qed.

Theorem C79_others unq input d cs n i : valid_utf8 input = true -> parse unq input = Ok d ->
  in_order 0 (length input) (map change_span cs) -> (forall c, In c cs -> can_make d c) ->
  nth_error (d_instructions d) n = Some i -> (forall c, In c cs -> disjoint (change_span c) (instruction_span i)) ->
  nth_error (d_instructions (all_changed cs d)) n = Some (move_instruction (after_edits (map change_edit cs)) i).
Proof.
  intros V E Ho Hc Hn Hd. revert Ho Hc Hd. generalize 0. induction cs as [|c cs IH]; intros b Ho Hc Hd; cbn [all_changed fold_right map].
  - rewrite Hn. f_equal. symmetry. apply (move_instruction_id i).
  - cbn [map in_order] in Ho. destruct Ho as (L1 & L2 & L3 & Ho). fold (all_changed cs d).
    assert (Hc' : forall c', In c' cs -> can_make d c') by (intros c' K; apply Hc; right; exact K).
    destruct (changes_made unq input d V E cs _ Ho L3 Hc') as (V' & E' & _ & K').
    specialize (IH _ Ho Hc' (fun c' K => Hd c' (or_intror K))). cbn [changed d_instructions]. rewrite nth_error_map, IH. cbn [option_map]. f_equal.
    rewrite (moved_alone unq _ _ c _ V' E').
    + rewrite move_instruction_comp. reflexivity.
    + apply K'; [apply Hc; left; reflexivity|lia].
    + apply nth_error_In in IH. exact IH.
    + assert (Es : instruction_span (move_instruction (after_edits (map change_edit cs)) i) = move_span (after_edits (map change_edit cs)) (instruction_span i))
        by (destruct i; reflexivity).
      rewrite Es. assert (Em : map fst (map change_edit cs) = map change_span cs) by (rewrite map_map; reflexivity).
      pose proof (in_order_bounds _ _ _ _ (C06_instructions_in_order unq input d V E) (in_map instruction_span _ _ (nth_error_In _ _ Hn))) as (_ & Li & _).
      apply (after_disjoint _ (s_end (change_span c)) (length input)); [rewrite Em; exact Ho|lia|lia|lia|apply Hd; left; reflexivity].
Qed.

(** The number of instructions and the kind of each stay. *)
Definition kind_of (i : instruction) : nat :=
  match i with
  | IFrom _ => 0 | IArg _ => 1 | ILabel _ => 2 | IRun _ => 3 | IEntrypoint _ => 4 | ICmd _ => 5 | ICopy _ => 6 | IEnv _ => 7 | IMisc _ => 8
  end.
Theorem C79_kinds cs d : map kind_of (d_instructions (all_changed cs d)) = map kind_of (d_instructions d).
Proof.
  induction cs as [|c cs IH]; [reflexivity|]. cbn [all_changed fold_right changed d_instructions]. fold (all_changed cs d). rewrite map_map, <- IH.
  apply map_ext. intros i. destruct c, i; reflexivity.
Qed.

(** ** Changes that can be made *)

(** A string of the result that is not quoted, after an equals sign *)
Theorem C79_value unq input d i sp a t : valid_utf8 input = true -> parse unq input = Ok d -> In i (d_instructions d) -> In sp (quotable_places i) ->
  firstn (s_start sp) input = a ++ [EQUALS] -> plain_text (text_at input sp) -> plain_text t -> can_make d (AfterEquals sp t).
Proof.
  intros V E Hi Hsp Ha HX HY. pose proof (parse_content _ _ _ E) as Ec. destruct (place_bounded unq input d V E i sp Hi Hsp) as (L1 & L2 & _).
  cbn [can_make]. rewrite Ec. split; [exact HY|]. split; [exact HX|]. split; [exact L2|]. split; [exists a; exact Ha|].
  intros j Hj y Hy Hr. destruct (selection_spans unq input d _ V E (places_selected (d_instructions d))) as [Ho _].
  destruct (in_order_disjoint _ _ _ _ _ Ho (proj2 (in_flat_map _ _ y) (ex_intro _ j (conj Hj Hy))) (proj2 (in_flat_map _ _ sp) (ex_intro _ i (conj Hi Hsp)))) as [->|D].
  - pose proof (plain_unquoted _ HX) as [_ Hq]. intros Hb'. apply (Sound.starts_quoted_spec (fun _ => None) []) in Hb'. congruence.
  - exfalso. destruct (place_bounded unq input d V E j y Hj Hy) as (L3 & _). unfold around in Hr. rewrite andb_true_iff, !Nat.leb_le in Hr.
    unfold disjoint in D. lia.
Qed.

(** A path of a COPY *)
Theorem C79_path unq input d x y t : valid_utf8 input = true -> parse unq input = Ok d -> In (ICopy x) (d_instructions d) ->
  In y (copy_sources x ++ [copy_destination x]) -> argument_word (text_at input (ss_span y)) -> argument_word t -> can_make d (NewWord (ss_span y) t).
Proof.
  intros V E Hi Hy HX HY. pose proof (parse_content _ _ _ E) as Ec. destruct (copy_words unq input d x y V E Hi Hy) as (L1 & L2 & Hb & Ha).
  cbn [can_make]. rewrite Ec. split; [exact HY|]. split; [exact HX|]. split; [exact Hb|]. split; [exact Ha|].
  exists (ICopy x). split; [exact Hi|]. split; [exact I|]. split; [exact L1|]. split; [exact L2|].
  assert (Hsp : In (ss_span y) (quotable_places (ICopy x))).
  { cbn [quotable_places]. apply in_or_app. right. unfold string_places. change [ss_span (copy_destination x)] with (map ss_span [copy_destination x]).
    rewrite <- map_app. apply in_map. exact Hy. }
  intros z Hz Hr. destruct (selection_spans unq input d _ V E (places_selected (d_instructions d))) as [Ho _].
  destruct (in_order_disjoint _ _ _ _ _ Ho (proj2 (in_flat_map _ _ z) (ex_intro _ _ (conj Hi Hz))) (proj2 (in_flat_map _ _ (ss_span y)) (ex_intro _ _ (conj Hi Hsp)))) as [->|D].
  - pose proof (plain_unquoted _ (proj1 HX)) as [_ Hq]. intros Hb'. apply (Sound.starts_quoted_spec (fun _ => None) []) in Hb'. congruence.
  - exfalso. destruct (place_bounded unq input d V E _ z Hi Hz) as (L3 & _). destruct (place_bounded unq input d V E _ _ Hi Hsp) as (L4 & _).
    unfold around in Hr. rewrite andb_true_iff, !Nat.leb_le in Hr. unfold disjoint in D. lia.
Qed.

(** ** The names of the FROMs *)

(** The image and the alias of a FROM are those that the changes give it, or else what they
    were, whatever other changes are made. *)
Theorem C79_froms unq input d cs n f : valid_utf8 input = true -> parse unq input = Ok d ->
  in_order 0 (length input) (map change_span cs) -> (forall c, In c cs -> can_make d c) ->
  nth_error (d_instructions d) n = Some (IFrom f) ->
  exists f', nth_error (d_instructions (all_changed cs d)) n = Some (IFrom f') /\ named cs f f'.
Proof.
  intros V E Ho Hc Hn. destruct (names_after unq input d V E cs 0 Ho ltac:(lia) Hc n f Hn) as (f' & H1 & H2 & _). exists f'. auto.
Qed.

Lemma froms_pair (P : from_instruction -> from_instruction -> Prop) l : forall l', map kind_of l = map kind_of l' ->
  (forall m f, nth_error l m = Some (IFrom f) -> exists f', nth_error l' m = Some (IFrom f') /\ P f f') -> Forall2 P (froms l) (froms l').
Proof.
  induction l as [|i l IH]; intros [|i' l'] Hk H; try discriminate; [constructor|]. cbn [map] in Hk. injection Hk as Hi Hk.
  specialize (IH l' Hk (fun m f => H (S m) f)). specialize (H 0).
  destruct i, i'; try discriminate; try exact IH. cbn [froms]. constructor; [|exact IH].
  destruct (H _ eq_refl) as (f' & K & HP). cbn [nth_error] in K. injection K as ->. exact HP.
Qed.

Lemma forall2_nth {A B} (P : A -> B -> Prop) l l' : Forall2 P l l' ->
  length l' = length l /\ forall i a b, nth_error l i = Some a -> nth_error l' i = Some b -> P a b.
Proof.
  induction 1 as [|a b l l' Hab _ [IH1 IH2]]; [split; [reflexivity|intros [|i] a b K; discriminate]|].
  split; [cbn [length]; lia|]. intros [|i] x y Hx Hy; [cbn in Hx, Hy; congruence|exact (IH2 i x y Hx Hy)].
Qed.

(** ** Renaming a stage while other changes are made *)

Theorem C79_stage unq input d ss k n r cs ops : valid_utf8 input = true -> parse unq input = Ok d -> stages_new d = Ok ss ->
  alias_text n -> new_name (d_instructions d) n ->
  in_order 0 (length input) (map change_span cs) -> (forall c, In c cs -> can_make d c) ->
  filter is_name_change cs = stage_changes ss k n r (d_instructions d) ->
  fits input (map change_edit cs) -> Permutation (map change_edit cs) ops ->
  exists st ss', splice_all (splicer_from d) ops = Ok st /\ parse unq (sp_content st) = Ok (all_changed cs d) /\
    stages_new (all_changed cs d) = Ok ss' /\ length ss' = length ss /\
    (forall i s s', nth_error ss i = Some s -> nth_error ss' i = Some s' ->
      st_index s' = i /\ st_parent s' = st_parent s /\ st_root s' = st_root s /\
      st_name s' = if i =? k then option_map (fun _ => to_lower n) (st_name s) else st_name s) /\
    (forall s, nth_error ss k = Some s -> st_name s <> None -> option_map st_index (get_by_name ss' n) = Some k) /\
    (forall m, ~ same_nocase n m -> (forall s, nth_error ss k = Some s -> st_name s <> Some (to_lower m)) ->
      option_map st_index (get_by_name ss' m) = option_map st_index (get_by_name ss m)).
Proof.
  intros V E S Hn Hnew Ho Hc Hcs Hf Hp. destruct (C79_changes unq input d cs ops V E Ho Hc Hf Hp) as (st & Es & _ & K).
  set (d' := all_changed cs d) in *. destruct (stages_new_spec d') as (ss' & S' & _). exists st, ss'.
  assert (F2 : Forall2 (named cs) (froms (d_instructions d)) (froms (d_instructions d'))).
  { apply froms_pair; [symmetry; apply C79_kinds|]. intros m f Hm. apply (C79_froms unq input d cs m f V E Ho Hc Hm). }
  destruct (forall2_nth _ _ _ F2) as [Len Nth].
  assert (Fi : forall i f, nth_error (froms (d_instructions d)) i = Some f -> from_index f = i).
  { intros i f Hf0. destruct (proj1 (proj2 (stage_of d ss S) i f) Hf0) as (s & Hs & Hsf).
    destruct (C26_stage_index_name d ss i s S Hs) as (_ & f2 & Hf2 & _ & Hx). rewrite (stage_from_fun _ _ _ Hsf Hf2). apply Hx.
    intros a b c Eab. apply (C08_from_index unq input d a b c E Eab). }
  (* The changes of names are those of the stage. *)
  assert (Ci : forall c, is_name_change c = true -> In c cs <-> exists f, In (IFrom f) (d_instructions d) /\ In c (stage_change ss k n r (IFrom f))).
  { intros c Hnc. split.
    - intros Hin. assert (In c (filter is_name_change cs)) as K2 by (apply filter_In; auto). rewrite Hcs in K2. apply in_flat_map in K2.
      destruct K2 as (i & Hi & K2). destruct i as [f| | | | | | | |]; try contradiction. exists f. auto.
    - intros (f & Hi & K2). assert (In c (filter is_name_change cs)) as K3 by (rewrite Hcs; apply in_flat_map; exists (IFrom f); auto).
      apply filter_In in K3. apply K3. }
  assert (Alias : forall i f f', nth_error (froms (d_instructions d)) i = Some f -> nth_error (froms (d_instructions d')) i = Some f' ->
    option_map ss_content (from_alias f') = if i =? k then option_map (fun _ => n) (from_alias f) else option_map ss_content (from_alias f)).
  { intros i f f' Hf0 Hf'. destruct (Nth i f f' Hf0 Hf') as (_ & _ & _ & Na). pose proof (nth_error_In _ _ Hf0) as Hi. apply in_froms in Hi.
    destruct (from_alias f) as [al|] eqn:Ea, (from_alias f') as [al'|]; try contradiction; [|destruct (i =? k); reflexivity]. destruct Na as [A B].
    cbn [option_map]. destruct (Nat.eqb_spec i k) as [->|Hik].
    - rewrite (A n); [reflexivity|]. apply Ci; [reflexivity|]. exists f. split; [exact Hi|]. cbn [stage_change]. rewrite Ea. unfold stage_alias.
      rewrite (Fi k f Hf0), Nat.eqb_refl. apply in_or_app. right. left. reflexivity.
    - rewrite B; [reflexivity|]. intros t Ht. apply Ci in Ht; [|reflexivity]. destruct Ht as (f2 & Hi2 & Ht). cbn [stage_change] in Ht.
      apply in_app_or in Ht. destruct Ht as [Ht|Ht]; [destruct (stage_image ss k n r f2) as [[? ?]|]; [destruct Ht as [Ht|[]]; discriminate|destruct Ht]|].
      destruct (from_alias f2) as [al2|] eqn:Ea2; [|destruct Ht]. destruct (stage_alias k n f2) as [t2|] eqn:Es2; [|destruct Ht].
      destruct Ht as [Ht|[]]. injection Ht as Esp _.
      assert (f = f2) as <-. { apply (same_place unq input d V E f f2 (ss_span al) Hi Hi2); [apply alias_place; exact Ea|rewrite <- Esp; apply alias_place; exact Ea2]. }
      unfold stage_alias in Es2. rewrite (Fi i f Hf0) in Es2. destruct (Nat.eqb_spec i k); [congruence|discriminate]. }
  assert (Image : forall i f f' s, nth_error (froms (d_instructions d)) i = Some f -> nth_error (froms (d_instructions d')) i = Some f' ->
    nth_error ss i = Some s ->
    (st_parent s = PStage k -> ss_content (from_image f') = n) /\
    (st_parent s <> PStage k -> ss_content (from_image f') = ss_content (from_image f) /\ from_image_parsed f' = from_image_parsed f)).
  { intros i f f' s Hf0 Hf' Hs. destruct (Nth i f f' Hf0 Hf') as (_ & A & B & _). pose proof (nth_error_In _ _ Hf0) as Hi. apply in_froms in Hi. split.
    - intros Hpa. apply (A n r). apply Ci; [reflexivity|]. exists f. split; [exact Hi|]. cbn [stage_change]. unfold stage_image.
      rewrite (Fi i f Hf0), Hs. cbn [option_map]. rewrite Hpa, Nat.eqb_refl. apply in_or_app. left. left. reflexivity.
    - intros Hne. apply B. intros t r' Ht. apply Ci in Ht; [|reflexivity]. destruct Ht as (f2 & Hi2 & Ht). cbn [stage_change] in Ht.
      apply in_app_or in Ht. destruct Ht as [Ht|Ht];
        [|destruct (from_alias f2); [destruct (stage_alias k n f2); [destruct Ht as [Ht|[]]; discriminate|]|]; destruct Ht].
      destruct (stage_image ss k n r f2) as [[t2 r2]|] eqn:Es2; [|destruct Ht]. destruct Ht as [Ht|[]]. injection Ht as Esp _ _.
      assert (f = f2) as <-. { apply (same_place unq input d V E f f2 (ss_span (from_image f)) Hi Hi2); [apply image_place|rewrite <- Esp; apply image_place]. }
      unfold stage_image in Es2. rewrite (Fi i f Hf0), Hs in Es2. cbn [option_map] in Es2. destruct (st_parent s) as [|j|]; try discriminate.
      destruct (Nat.eqb_spec j k) as [->|]; [congruence|discriminate]. }
  split; [exact Es|]. split; [exact K|]. split; [exact S'|].
  split; [apply (renamed_length d d' ss S Len ss' S')|]. split; [|split].
  - intros i s s' Hs Hs'. split; [apply (C26_stage_index_name d' ss' i s' S' Hs')|].
    split; [eapply (same_parent d d' ss k n); eassumption|]. split; [eapply (same_root d d' ss k n); eassumption|].
    eapply (new_stage_name d d' ss k n); eassumption.
  - intros s Hs Hsn. eapply (new_found d d' ss k n); eassumption.
  - intros m Hm Hk. eapply (others_found d d' ss k n); eassumption.
Qed.

(** ** An example *)

Definition mixed : bytes :=
  bs "ARG V=1" ++ [LF] ++ bs "FROM alpine:$V AS build" ++ [LF] ++ bs "RUN make all" ++ [LF] ++ bs "FROM debian" ++ [LF] ++
  bs "COPY --from=build /a /b" ++ [LF] ++ bs "WORKDIR /app".
Definition mixed_changes : list change :=
  [AfterEquals (Span 6 7) (bs "3.19"); NewImage (Span 13 22) (bs "reg.io/ubuntu:22.04") (image_parse (bs "reg.io/ubuntu:22.04"));
   NewAlias (Span 26 31) (bs "compile"); NewWord (Span 41 44) (bs "install"); AfterEquals (Span 69 74) (bs "compile");
   NewWord (Span 78 80) (bs "/usr/bin/"); NewWord (Span 89 93) (bs "/srv")].
Definition mixed_result : bytes :=
  bs "ARG V=3.19" ++ [LF] ++ bs "FROM reg.io/ubuntu:22.04 AS compile" ++ [LF] ++ bs "RUN make install" ++ [LF] ++ bs "FROM debian" ++ [LF] ++
  bs "COPY --from=compile /a /usr/bin/" ++ [LF] ++ bs "WORKDIR /srv".
Definition mixed_doc : dockerfile := Eval vm_compute in match parse enquote_unquote mixed with Ok d => d | _ => Dockerfile [] [] [] end.
Lemma mixed_parsed : valid_utf8 mixed = true /\ parse enquote_unquote mixed = Ok mixed_doc.
Proof. split; [vm_compute; reflexivity|]. vm_compute. reflexivity. Qed.

Ltac plain := split; [vm_compute; reflexivity|split; [discriminate|split; [apply Forall_forall; intros c Hc; vm_compute in Hc;
  repeat (destruct Hc as [<-|Hc]; [reflexivity|]); destruct Hc|intros (w & Ew); discriminate]]].

Example C79_can : in_order 0 (length mixed) (map change_span mixed_changes) /\ fits mixed (map change_edit mixed_changes) /\
  forall c, In c mixed_changes -> can_make mixed_doc c.
Proof.
  destruct mixed_parsed as [V E].
  split; [vm_compute; lia|]. split; [vm_compute; reflexivity|]. intros c Hc. unfold mixed_changes in Hc.
  destruct Hc as [<-|[<-|[<-|[<-|[<-|[<-|[<-|[]]]]]]]].
  - apply (C79_value enquote_unquote mixed mixed_doc (hd (IRun (RunInstruction (Span 0 0) (Shell (BreakableString (Span 0 0) [])))) (d_instructions mixed_doc))
      (Span 6 7) (bs "ARG V") (bs "3.19") V E); [left; reflexivity|right; left; reflexivity|vm_compute; reflexivity| |]; plain.
  - cbn [can_make]. split.
    + split; [split; [discriminate|repeat constructor]|]. split; [apply ImageFacts.image_parse_spec; reflexivity|]. intros h K. vm_compute in K. discriminate.
    + eexists. split; [right; left; reflexivity|reflexivity].
  - cbn [can_make]. split; [split; [discriminate|repeat constructor]|]. eexists. eexists. split; [right; left; reflexivity|]. split; reflexivity.
  - cbn [can_make]. split; [argument|]. split; [argument|].
    split; [exists (firstn 40 mixed), 32%N; split; [vm_compute; reflexivity|left; reflexivity]|]. split; [vm_compute; reflexivity|].
    eexists. split; [right; right; left; reflexivity|]. split; [exact I|]. split; [vm_compute; lia|]. split; [vm_compute; lia|]. intros y [].
  - apply (C79_value enquote_unquote mixed mixed_doc (nth 4 (d_instructions mixed_doc) (IRun (RunInstruction (Span 0 0) (Shell (BreakableString (Span 0 0) [])))))
      (Span 69 74) (firstn 68 mixed) (bs "compile") V E); [do 4 right; left; reflexivity|right; left; reflexivity|vm_compute; reflexivity| |]; plain.
  - apply (C79_path enquote_unquote mixed mixed_doc (match nth 4 (d_instructions mixed_doc) (IRun (RunInstruction (Span 0 0) (Shell (BreakableString (Span 0 0) [])))) with
        ICopy x => x | _ => CopyInstruction (Span 0 0) [] [] (SpannedString (Span 0 0) []) end)
      (SpannedString (Span 78 80) (bs "/b")) (bs "/usr/bin/") V E); [do 4 right; left; reflexivity|right; left; reflexivity| |]; argument.
  - cbn [can_make]. split; [argument|]. split; [argument|].
    split; [exists (firstn 88 mixed), 32%N; split; [vm_compute; reflexivity|left; reflexivity]|]. split; [vm_compute; reflexivity|].
    eexists. split; [do 5 right; left; reflexivity|]. split; [cbn [loose_instruction sought_words]; repeat constructor; vm_compute; discriminate|].
    split; [vm_compute; lia|]. split; [vm_compute; lia|]. intros y [<-|[]] K. vm_compute in K. discriminate.
Qed.

(** The calls in another order *)
Definition mixed_calls : list edit :=
  [(Span 89 93, bs "/srv"); (Span 6 7, bs "3.19"); (Span 41 44, bs "install"); (Span 13 22, bs "reg.io/ubuntu:22.04"); (Span 78 80, bs "/usr/bin/");
   (Span 69 74, bs "compile"); (Span 26 31, bs "compile")].
Example C79_case : exists st, Permutation (map change_edit mixed_changes) mixed_calls /\
  splice_all (splicer_from mixed_doc) mixed_calls = Ok st /\ sp_content st = mixed_result /\ parse enquote_unquote mixed_result = Ok (all_changed mixed_changes mixed_doc).
Proof.
  eexists. split.
  { unfold mixed_calls, mixed_changes. cbn [map change_edit change_span change_text].
    apply NoDup_Permutation; [|  |].
    - repeat (constructor; [intros K; cbn [In] in K; repeat (destruct K as [K|K]; [discriminate K|]); exact K|]). constructor.
    - repeat (constructor; [intros K; cbn [In] in K; repeat (destruct K as [K|K]; [discriminate K|]); exact K|]). constructor.
    - intros e. cbn [In]. tauto. }
  split; [vm_compute; reflexivity|]. split; [vm_compute; reflexivity|]. vm_compute. reflexivity.
Qed.

(** A stage renamed in its alias, in the FROM that refers to it and in a COPY, while a path
    is changed as well *)
Definition staged : bytes := bs "FROM a AS build" ++ [LF] ++ bs "FROM build" ++ [LF] ++ bs "FROM b" ++ [LF] ++ bs "COPY --from=build /x /y".
Definition staged_doc : dockerfile := Eval vm_compute in match parse enquote_unquote staged with Ok d => d | _ => Dockerfile [] [] [] end.
Definition staged_stages : list stage := Eval vm_compute in match stages_new staged_doc with Ok l => l | _ => [] end.
Definition staged_changes : list change :=
  [NewAlias (Span 10 15) (bs "compile"); NewImage (Span 21 26) (bs "compile") (image_parse (bs "compile")); AfterEquals (Span 46 51) (bs "compile");
   NewWord (Span 55 57) (bs "/z/")].
Example C79_stage_case : exists st ss' a b,
  valid_utf8 staged = true /\ parse enquote_unquote staged = Ok staged_doc /\ stages_new staged_doc = Ok staged_stages /\
  alias_text (bs "compile") /\ new_name (d_instructions staged_doc) (bs "compile") /\
  in_order 0 (length staged) (map change_span staged_changes) /\ (forall c, In c staged_changes -> can_make staged_doc c) /\
  filter is_name_change staged_changes = stage_changes staged_stages 0 (bs "compile") (image_parse (bs "compile")) (d_instructions staged_doc) /\
  fits staged (map change_edit staged_changes) /\
  splice_all (splicer_from staged_doc) (rev (map change_edit staged_changes)) = Ok st /\
  sp_content st = bs "FROM a AS compile" ++ [LF] ++ bs "FROM compile" ++ [LF] ++ bs "FROM b" ++ [LF] ++ bs "COPY --from=compile /x /z/" /\
  stages_new (all_changed staged_changes staged_doc) = Ok ss' /\
  map st_parent staged_stages = [PImage a; PStage 0; PImage b] /\ map st_parent ss' = [PImage a; PStage 0; PImage b] /\
  map st_name staged_stages = [Some (bs "build"); None; None] /\ map st_name ss' = [Some (bs "compile"); None; None].
Proof.
  assert (V : valid_utf8 staged = true) by (vm_compute; reflexivity).
  assert (E : parse enquote_unquote staged = Ok staged_doc) by (vm_compute; reflexivity).
  do 4 eexists. split; [exact V|]. split; [exact E|]. split; [vm_compute; reflexivity|]. split; [split; [discriminate|repeat constructor]|]. split.
  { split; [vm_compute; discriminate|]. intros f Hf. apply in_froms in Hf. vm_compute in Hf.
    repeat (destruct Hf as [<-|Hf]; [split; [vm_compute; discriminate|intros (x & Ex & K); vm_compute in Ex; try discriminate; injection Ex as <-; vm_compute in K; discriminate]|]).
    destruct Hf. }
  split; [vm_compute; lia|]. split.
  { intros c Hc. unfold staged_changes in Hc. destruct Hc as [<-|[<-|[<-|[<-|[]]]]].
    - cbn [can_make]. split; [split; [discriminate|repeat constructor]|]. eexists. eexists. split; [left; reflexivity|]. split; reflexivity.
    - cbn [can_make]. split; [|eexists; split; [right; left; reflexivity|reflexivity]].
      split; [split; [discriminate|repeat constructor]|]. split; [apply ImageFacts.image_parse_spec; reflexivity|]. intros h K. vm_compute in K. discriminate.
    - apply (C79_value enquote_unquote staged staged_doc (nth 3 (d_instructions staged_doc) (IRun (RunInstruction (Span 0 0) (Shell (BreakableString (Span 0 0) [])))))
        (Span 46 51) (firstn 45 staged) (bs "compile") V E); [do 3 right; left; reflexivity|right; left; reflexivity|vm_compute; reflexivity| |]; plain.
    - apply (C79_path enquote_unquote staged staged_doc (match nth 3 (d_instructions staged_doc) (IRun (RunInstruction (Span 0 0) (Shell (BreakableString (Span 0 0) [])))) with
          ICopy x => x | _ => CopyInstruction (Span 0 0) [] [] (SpannedString (Span 0 0) []) end)
        (SpannedString (Span 55 57) (bs "/y")) (bs "/z/") V E); [do 3 right; left; reflexivity|right; left; reflexivity| |]; argument. }
  split; [vm_compute; reflexivity|]. split; [vm_compute; reflexivity|]. split; [vm_compute; reflexivity|]. split; [vm_compute; reflexivity|].
  split; [vm_compute; reflexivity|]. split; [vm_compute; reflexivity|]. split; [vm_compute; reflexivity|]. split; vm_compute; reflexivity.
Qed.

(** The text after the equals sign must be plain: with a blank in it nothing is parsed. *)
Example C79_not_plain : exists d st, parse enquote_unquote (bs "ARG V=1") = Ok d /\ ~ can_make d (AfterEquals (Span 6 7) (bs "1 2")) /\
  splice (splicer_from d) (Span 6 7) (bs "1 2") = Ok st /\ parse enquote_unquote (sp_content st) = Err EParse.
Proof.
  do 2 eexists. split; [vm_compute; reflexivity|]. split.
  { intros ((_ & _ & K & _) & _). rewrite Forall_forall in K. specialize (K 32%N (or_intror (or_introl eq_refl))). discriminate. }
  split; [vm_compute; reflexivity|]. vm_compute. reflexivity.
Qed.

Print Assumptions C79_changes.
Print Assumptions C79_others.
Print Assumptions C79_kinds.
Print Assumptions C79_froms.
Print Assumptions C79_stage.
Print Assumptions C79_value.
Print Assumptions C79_path.
