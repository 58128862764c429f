(** Replacing any number of images and aliases in any document that parses. *)

From Coq Require Import String.
From Verif Require Import Bytes BytesFacts Ast SpecImage SpecSyntax SpecDoc SpecMove MoveFacts Result Splicer
  SpecSplice SplicerFacts Dockerfile DocFacts EditFacts SpecParts PartsFacts SelectFacts SpecLayout LayoutFacts ParseFacts ParseEdit SwapDoc
  RewriteFacts SpecReword RewordFacts PropsEdit SpecAlias AliasDoc.
Local Open Scope nat_scope.

Lemma selection_nothing l : selection l [].
Proof. induction l as [|x l IH]; constructor. exact IH. Qed.

Lemma move_from_comp g h f : move_from g (move_from h f) = move_from (fun x => g (h x)) f.
Proof. pose proof (move_instruction_comp g h (IFrom f)) as K. cbn [move_instruction] in K. injection K as K1 K2. unfold move_from. cbn. f_equal; assumption. Qed.

Lemma move_with_alias g f t : move_from g (with_alias f t) = with_alias (move_from g f) t.
Proof. unfold move_from, with_alias. cbn. f_equal. destruct (from_alias f); reflexivity. Qed.

Lemma move_with_image g f t r : move_from g (with_image f t r) = with_image (move_from g f) t r.
Proof. reflexivity. Qed.

(** One more edit before the others *)
Lemma replaced_one input a b t es len pre old post : in_order b len (map fst es) -> a <= b -> b <= length input ->
  replaced input 0 es = pre ++ old ++ post -> length pre = a -> length pre + length old = b ->
  replaced input 0 ((Span a b, t) :: es) = pre ++ t ++ post.
Proof.
  intros Ho Hab Hb Ew Ea Eb. cbn [replaced s_start s_end]. pose proof (starts_from_order _ _ _ Ho) as Hst.
  rewrite (replaced_split input 0 b) in Ew by (try exact Hst; lia). rewrite (slice_split input 0 a b) in Ew by lia.
  rewrite <- app_assoc in Ew.
  assert (L1 : length (slice input 0 a) = length pre) by (rewrite slice_length; lia).
  destruct (app_same_length _ _ _ _ Ew L1) as [E3 E4].
  assert (L2 : length (slice input a b) = length old) by (rewrite slice_length; lia).
  destruct (app_same_length _ _ _ _ E4 L2) as [_ E5]. rewrite E3, E5. reflexivity.
Qed.

Section Names.
Variable unq : bytes -> option bytes.
Variable choose : from_instruction -> option (bytes * image_ref).
Variable call : from_instruction -> option bytes.
Notation edits := (name_edits choose call).
Notation renewed := (with_new_names choose call).

Lemma names_selected l : selection (map instruction_part l) (map fst (edits l)).
Proof.
  replace (map fst (edits l)) with (flat_map (fun i => map fst (name_edit choose call i)) l).
  2: { induction l as [|i l IH]; [reflexivity|]. unfold name_edits in *. cbn [flat_map]. rewrite map_app, IH. reflexivity. }
  apply selection_all. intros i. apply selection_one. destruct i as [f| | | | | | | |]; try apply selection_nothing.
  cbn [name_edit instruction_part part_sub parts image_edit]. rewrite map_app.
  apply (selection_app _ [] (selection_nothing _)).
  assert (K : selection (maybe (from_alias f)) (map fst (alias_edit call f))).
  { unfold alias_edit. destruct (from_alias f) as [a|]; [|constructor]. destruct (call f); [|apply selection_nothing].
    exact (select_part (string_part a) _ _ select_end). }
  cbn [app]. destruct (choose f) as [[t r]|]; cbn [map app fst].
  - exact (select_part (string_part (from_image f)) _ _ K).
  - exact (select_skip (string_part (from_image f)) _ _ K).
Qed.

Lemma names_in_order input d : valid_utf8 input = true -> parse unq input = Ok d -> in_order 0 (length input) (map fst (edits (d_instructions d))).
Proof.
  intros V E. destruct (selection_spans unq input d _ V E (names_selected (d_instructions d))) as [H _].
  rewrite (parse_content _ _ _ E) in H. exact H.
Qed.

Lemma move_renewed g G i : move_instruction g (renewed G i) = renewed (fun x => g (G x)) i.
Proof.
  destruct i as [f| | | | | | | |]; try apply move_instruction_comp. cbn [with_new_names move_instruction]. f_equal. unfold from_with_names.
  destruct (choose f) as [[t r]|], (call f) as [n|]; rewrite ?move_with_image, ?move_with_alias, ?move_from_comp; reflexivity.
Qed.

Lemma rename_any input d : valid_utf8 input = true -> parse unq input = Ok d ->
  forall l2 l1, d_instructions d = l1 ++ l2 ->
  (forall f t r, In (IFrom f) l2 -> choose f = Some (t, r) -> image_accepted t r) ->
  (forall f t, In (IFrom f) l2 -> call f = Some t -> alias_text t) ->
  forall G, G = after_edits (edits l2) ->
  valid_utf8 (replaced input 0 (edits l2)) = true /\
  parse unq (replaced input 0 (edits l2)) = Ok (Dockerfile (replaced input 0 (edits l2))
    (map (move_arg G) (d_global_args d)) (map (move_instruction G) l1 ++ map (renewed G) l2)).
Proof.
  intros Hv E. pose proof (names_in_order input d Hv E) as Hall.
  induction l2 as [|i l2 IH]; intros l1 El Hok Hal G EG.
  - cbn [name_edits flat_map replaced skipn map app]. split; [exact Hv|]. rewrite app_nil_r in *. rewrite E, EG.
    cbn [name_edits flat_map after_edits fold_right]. f_equal.
    rewrite (map_ext (move_arg _) (fun a => a)); [rewrite map_id|intros [[] [[]] [[[]]|]]; reflexivity].
    rewrite (map_ext (move_instruction _) (fun i => i)); [rewrite map_id|intros i; apply move_instruction_id].
    rewrite <- El, <- (parse_content _ _ _ E). destruct d; reflexivity.
  - pose proof Hall as Ho. rewrite El in Ho.
    destruct (IH (l1 ++ [i])) with (G := after_edits (edits l2)) as [Hv2 E2];
      [rewrite El, <- app_assoc; reflexivity|intros f t r Hf; apply Hok; right; exact Hf|intros f t Hf; apply Hal; right; exact Hf|reflexivity|]. clear IH.
    unfold name_edits in *. rewrite flat_map_app, map_app in Ho. apply in_order_app_r with (q := 0) in Ho; [|intros; lia].
    cbn [flat_map] in *. fold (edits l2) in *. rewrite map_app, <- app_assoc in E2. cbn [map app] in E2.
    destruct i as [f| | | | | | | |]; try (cbn [name_edit app] in *; rewrite <- EG in E2; split; [exact Hv2|exact E2]).
    cbn [name_edit move_instruction] in *. rewrite <- app_assoc in *. set (H := after_edits (edits l2)) in *.
    (* the alias *)
    set (mid := fun g : nat -> nat => match call f with Some t => with_alias (move_from g f) t | None => move_from g f end).
    assert (A : forall H1, H1 = after_edits (alias_edit call f ++ edits l2) ->
      valid_utf8 (replaced input 0 (alias_edit call f ++ edits l2)) = true /\
      parse unq (replaced input 0 (alias_edit call f ++ edits l2)) = Ok (Dockerfile (replaced input 0 (alias_edit call f ++ edits l2))
        (map (move_arg H1) (d_global_args d)) (map (move_instruction H1) l1 ++ IFrom (mid H1) :: map (renewed H1) l2))).
    { intros H1 EH1. assert (Ho1 : in_order 0 (length input) (map fst (alias_edit call f ++ edits l2))).
      { rewrite map_app in Ho. apply in_order_app_r with (q := 0) in Ho; [exact Ho|intros; lia]. }
      unfold alias_edit in *. destruct (from_alias f) as [a|] eqn:Fa.
      2: { cbn [app] in *. fold H in EH1. subst H1. split; [exact Hv2|]. rewrite E2. f_equal. f_equal. f_equal. f_equal. f_equal. unfold mid. destruct (call f); [|reflexivity].
           unfold with_alias, move_from. cbn. rewrite Fa. reflexivity. }
      destruct (call f) as [t|] eqn:Ca; [|cbn [app] in *; fold H in EH1; subst H1; split; [exact Hv2|]; rewrite E2; unfold mid; rewrite ?Ca; reflexivity].
      cbn [app] in *. unfold mid. rewrite ?Ca.
      assert (Fm : from_alias (move_from H f) = Some (move_string H a)) by (cbn [move_from from_alias]; rewrite Fa; reflexivity).
      destruct (parse_alias_moved unq _ _ _ _ _ _ Hv2 E2 eq_refl Fm) as (pre & post & Ew & Hne & Hsp & _ & Hnew).
      specialize (Hnew t (Hal f t (or_introl eq_refl) Ca) _ eq_refl). cbn [d_global_args move_string ss_content ss_span] in *.
      cbn [map fst in_order] in Ho1. destruct Ho1 as (_ & Ho1 & Ho2 & Ho3).
      assert (Eg : forall x, x <= s_end (ss_span a) -> H x = x) by (intros x Hx; apply (after_edits_id _ _ _ Ho3 x Hx)).
      unfold move_span in Hsp. rewrite !Eg in Hsp by lia. destruct (ss_span a) as [lo hi] eqn:Esp.
      cbn [s_start s_end] in *. injection Hsp as Ea Eb.
      rewrite (replaced_one input lo hi t (edits l2) _ pre (ss_content a) post Ho3) by (try exact Ew; lia).
      destruct Hnew as [Hv3 Hnew]. split; [exact Hv3|]. rewrite Hnew.
      assert (EH : H1 = fun x => replacement (length pre) (length pre + length (ss_content a)) (length t) (H x)).
      { rewrite EH1, <- Eb, <- Ea. reflexivity. }
      rewrite EH. f_equal. f_equal.
      - rewrite map_map. apply map_ext. intros x. destruct x as [? ? []]; reflexivity.
      - rewrite !map_map. rewrite (map_ext _ _ (move_instruction_comp _ H)), (map_ext _ _ (move_renewed _ H)), move_from_comp. reflexivity. }
    destruct (A _ eq_refl) as [Hv4 E4]. clear A. set (H1 := after_edits (alias_edit call f ++ edits l2)) in *.
    (* the image *)
    cbn [image_edit] in *. assert (Em : forall g, from_with_names choose call g f = match choose f with Some (t, r) => with_image (mid g) t r | None => mid g end) by reflexivity.
    cbn [map with_new_names]. rewrite Em.
    destruct (choose f) as [[t r]|] eqn:Ec; cbn [app] in *; [|rewrite EG; split; [exact Hv4|exact E4]].
    destruct (parse_replace unq _ _ _ _ _ Hv4 E4 eq_refl) as (pre & post & Ew & Hne & Hsp & Hnew).
    specialize (Hnew t r (Hok f t r (or_introl eq_refl) Ec) _ eq_refl). cbn [d_global_args] in Hnew.
    assert (Mi : from_image (mid H1) = move_string H1 (from_image f)) by (unfold mid; destruct (call f); reflexivity).
    rewrite Mi in *. cbn [move_string ss_content ss_span] in *.
    cbn [map fst in_order] in Ho. destruct Ho as (_ & Ho1 & Ho2 & Ho3).
    assert (Eg : forall x, x <= s_end (ss_span (from_image f)) -> H1 x = x) by (intros x Hx; apply (after_edits_id _ _ _ Ho3 x Hx)).
    unfold move_span in Hsp. rewrite !Eg in Hsp by lia. destruct (ss_span (from_image f)) as [lo hi] eqn:Esp.
    cbn [s_start s_end] in *. injection Hsp as Ea Eb.
    rewrite (replaced_one input lo hi t _ _ pre (ss_content (from_image f)) post Ho3) by (try exact Ew; lia).
    destruct Hnew as [Hv3 Hnew]. split; [exact Hv3|]. rewrite Hnew.
    assert (EH : G = fun x => replacement (length pre) (length pre + length (ss_content (from_image f))) (length t) (H1 x)).
    { rewrite EG, <- Eb, <- Ea. reflexivity. }
    rewrite EH. f_equal. f_equal.
    + rewrite map_map. apply map_ext. intros x. destruct x as [? ? []]; reflexivity.
    + rewrite !map_map. rewrite (map_ext _ _ (move_instruction_comp _ H1)), (map_ext _ _ (move_renewed _ H1)). f_equal. f_equal. f_equal.
      unfold mid. destruct (call f); rewrite ?move_with_alias, move_from_comp; reflexivity.
Qed.

End Names.
