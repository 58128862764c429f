(** Replacing any number of images in any document that parses. *)

From Coq Require Import String.
From Verif Require Import Bytes BytesFacts Ast SpecImage SpecSyntax SpecDoc SpecMove MoveFacts Result Splicer
  SpecSplice SplicerFacts Dockerfile DocFacts EditFacts SpecParts PartsFacts SpecLayout LayoutFacts ParseFacts ParseEdit SwapDoc.
Local Open Scope nat_scope.

Section Images.
Variable unq : bytes -> option bytes.
Variable choose : from_instruction -> option (bytes * image_ref).

Lemma in_order_pick l : forall p len, in_order p len (map instruction_span l) ->
  (forall f, In (IFrom f) l -> s_start (from_span f) <= s_start (ss_span (from_image f)) /\
    s_start (ss_span (from_image f)) < s_end (ss_span (from_image f)) /\ s_end (ss_span (from_image f)) <= s_end (from_span f)) ->
  in_order p len (map fst (image_edits choose l)).
Proof.
  induction l as [|i l IH]; intros p len H Hf; [exact I|]. cbn [map in_order] in H. destruct H as (H1 & H2 & H3 & H4).
  specialize (IH _ _ H4 (fun f K => Hf f (or_intror K))). unfold image_edits in *. cbn [flat_map]. rewrite map_app.
  assert (Hskip : in_order p len (map fst (flat_map (image_edit choose) l))).
  { apply (ParseEdit.in_order_from p (s_end (instruction_span i))); [lia|exact IH]. }
  destruct i as [f| | | | | | | |]; try exact Hskip. cbn [image_edit]. destruct (choose f) as [[t r]|]; [|exact Hskip].
  cbn [map app fst in_order]. destruct (Hf f (or_introl eq_refl)) as (K1 & K2 & K3). cbn [instruction_span] in *.
  repeat split; try lia. apply (ParseEdit.in_order_from _ (s_end (from_span f))); [lia|exact IH].
Qed.

Lemma in_place_order input x : in_place unq input x ->
  in_order (s_start (part_span x)) (s_end (part_span x)) (map part_span (part_sub x)).
Proof. intros K. destruct K as [p w c sub _ _ _ _ Ho _]. exact Ho. Qed.

Lemma images_in_order_any input d : valid_utf8 input = true -> parse unq input = Ok d ->
  in_order 0 (length input) (map fst (image_edits choose (d_instructions d))).
Proof.
  intros Hv E. destruct (parsed_document unq input d Hv E) as [_ Hd]. apply in_order_pick.
  - apply tiled_in_order, (document_tiled unq), Hd.
  - intros f Hf. pose proof (parsed_parts unq input d Hv E _ (instruction_part (IFrom f)) Hf (or_introl eq_refl)) as K.
    assert (Ho : in_order (s_start (from_span f)) (s_end (from_span f)) (map part_span (parts (IFrom f)))).
    { apply (in_place_order input) in K. exact K. }
    apply (in_order_bounds _ _ _ (ss_span (from_image f)) Ho). apply in_map_iff. exists (string_part (from_image f)).
    split; [reflexivity|]. cbn [parts]. apply in_or_app. right. left. reflexivity.
Qed.

(** The images of [l2], the last instructions, replaced one after the other from the
    last to the first *)
Lemma rewrite_any input d : valid_utf8 input = true -> parse unq input = Ok d ->
  forall l2 l1, d_instructions d = l1 ++ l2 ->
  (forall f t r, In (IFrom f) l2 -> choose f = Some (t, r) -> image_accepted t r) ->
  forall G, G = after_edits (image_edits choose l2) ->
  valid_utf8 (replaced input 0 (image_edits choose l2)) = true /\
  parse unq (replaced input 0 (image_edits choose l2)) = Ok (Dockerfile (replaced input 0 (image_edits choose l2))
    (map (move_arg G) (d_global_args d)) (map (move_instruction G) l1 ++ map (with_new_image choose G) l2)).
Proof.
  intros Hv E. pose proof (images_in_order_any input d Hv E) as Hall.
  induction l2 as [|i l2 IH]; intros l1 El Hok G EG.
  - cbn [image_edits flat_map replaced skipn map app]. split; [exact Hv|]. rewrite app_nil_r in *. rewrite E, EG.
    cbn [image_edits flat_map after_edits fold_right]. f_equal.
    rewrite (map_ext (move_arg _) (fun a => a)); [rewrite map_id|intros [[] [[]] [[[]]|]]; reflexivity].
    rewrite (map_ext (move_instruction _) (fun i => i)); [rewrite map_id|intros i; apply move_instruction_id].
    rewrite <- El, <- (parse_content _ _ _ E). destruct d; reflexivity.
  - pose proof Hall as Ho. rewrite El in Ho.
    destruct (IH (l1 ++ [i])) with (G := after_edits (image_edits choose l2)) as [Hv2 E2];
      [rewrite El, <- app_assoc; reflexivity|intros f t r Hf; apply Hok; right; exact Hf|reflexivity|]. clear IH.
    unfold image_edits in *. rewrite flat_map_app, map_app in Ho.
    cbn [flat_map] in *. fold (image_edits choose l2) in *.
    destruct (image_edit choose i) as [|e es] eqn:Ee.
    + cbn [app] in *. split; [exact Hv2|]. rewrite E2, <- EG. rewrite map_app, <- app_assoc. cbn [map app].
      assert (Ei : with_new_image choose G i = move_instruction G i).
      { destruct i as [f| | | | | | | |]; try reflexivity. cbn in *. destruct (choose f) as [[t r]|]; [discriminate|reflexivity]. }
      rewrite Ei. reflexivity.
    + destruct i as [f| | | | | | | |]; try discriminate. cbn [image_edit] in Ee. destruct (choose f) as [[t r]|] eqn:Ec; [|discriminate].
      injection Ee as <- <-. cbn [app] in *. rewrite map_app, <- app_assoc in E2. cbn [map app move_instruction] in E2.
      set (H := after_edits (image_edits choose l2)) in *.
      destruct (parse_replace unq _ _ _ _ _ Hv2 E2 eq_refl) as (pre & post & Ew & Hne & Hsp & Hnew).
      specialize (Hnew t r (Hok f t r (or_introl eq_refl) Ec) _ eq_refl). cbn [d_global_args move_from from_image move_string ss_content ss_span] in *.
      set (img := ss_content (from_image f)) in *.
      apply in_order_app_r with (q := 0) in Ho; [|intros; lia].
      cbn [map fst in_order] in Ho. destruct Ho as (_ & Ho1 & Ho2 & Ho3).
      assert (Eg : forall x, x <= s_end (ss_span (from_image f)) -> H x = x) by (intros x Hx; apply (after_edits_id _ _ _ Ho3 x Hx)).
      unfold move_span in Hsp. rewrite !Eg in Hsp by lia. destruct (ss_span (from_image f)) as [a b] eqn:Esp.
      cbn [s_start s_end] in *. injection Hsp as Ea Eb.
      assert (Et : replaced input 0 ((Span a b, t) :: image_edits choose l2) = pre ++ t ++ post).
      { cbn [replaced s_start s_end]. pose proof (starts_from_order _ _ _ Ho3) as Hst.
        rewrite (replaced_split input 0 b) in Ew by (try exact Hst; lia). rewrite (slice_split input 0 a b) in Ew by lia.
        rewrite <- app_assoc in Ew.
        assert (L1 : length (slice input 0 a) = length pre) by (rewrite slice_length; lia).
        destruct (app_same_length _ _ _ _ Ew L1) as [E3 E4].
        assert (L2 : length (slice input a b) = length img) by (rewrite slice_length; lia).
        destruct (app_same_length _ _ _ _ E4 L2) as [_ E5]. rewrite E3, E5. reflexivity. }
      rewrite Et. destruct Hnew as [Hv3 Hnew]. split; [exact Hv3|]. rewrite Hnew. f_equal. f_equal.
      * rewrite map_map. apply map_ext. intros x. rewrite EG. cbn [after_edits fold_right fst snd s_start s_end].
        replace (length pre + length img) with b by lia. rewrite <- Ea. destruct x as [? ? []]; reflexivity.
      * rewrite !map_map. rewrite (map_ext _ _ (move_instruction_comp _ H)). rewrite (map_ext _ _ (move_with_new_image _ _ H)).
        replace (length pre + length img) with b by lia. rewrite <- Ea.
        assert (EG2 : G = fun x => replacement a b (length t) (H x)) by (rewrite EG; reflexivity).
        rewrite EG2. f_equal. cbn [map with_new_image]. rewrite Ec. f_equal.
        pose proof (move_instruction_comp (replacement a b (length t)) H (IFrom f)) as K. cbn [move_instruction] in K.
        injection K as K1 K2. unfold with_image, move_from. cbn. f_equal. f_equal; congruence.
Qed.

End Images.
