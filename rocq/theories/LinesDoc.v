(** Parsing texts that differ only in how their line ends are written. *)

From Coq Require Import String.
From Verif Require Import Bytes BytesFacts Grammar Peg PegFacts SpecSyntax Result Ast Convert Dockerfile Sound
  SpecParts PartsFacts ParseFacts SpecMove Shift ConvertMove Forward TwinDoc SpecLines Lines.
Local Open Scope nat_scope.

(** ** Texts on one line are the same on both sides *)

Lemma across_text l u w v : Forall mark_ok l -> left_text l = u ++ w ++ v -> w <> [] -> no_newline w ->
  slice (right_text l) (across l (length u)) (across l (length u + length w)) = w.
Proof.
  intros Hl E Hw Hn. destruct w as [|c w]; [congruence|]. inversion Hn as [|? ? Hc Hn']; subst.
  destruct (cut_after u c l (w ++ v) Hl Hc E) as (k1 & k2 & -> & <- & E2). apply Forall_app in Hl. destruct Hl as [H1 H2].
  inversion H2 as [|? ? _ H3]; subst. destruct (cut_same w k2 v H3 Hn' E2) as (k3 & -> & E3).
  rewrite across_here by assumption.
  replace (k1 ++ Same c :: map Same w ++ k3) with ((k1 ++ map Same (c :: w)) ++ k3) by (rewrite <- app_assoc; reflexivity).
  replace (length (left_text k1) + length (c :: w)) with (length (left_text (k1 ++ map Same (c :: w))))
    by (rewrite left_app, left_same, app_length; reflexivity).
  apply Forall_app in H3. destruct H3 as [H3 H4].
  rewrite across_here; [|apply Forall_app; split; [exact H1|cbn [map]; constructor; [exact Hc|exact H3]]|exact H4].
  rewrite !right_app, right_same, app_length, <- app_assoc. apply slice_app.
Qed.

(** ** Validity *)

Lemma lines_valid l : Forall mark_ok l -> valid_utf8 (left_text l) = true -> valid_utf8 (right_text l) = true.
Proof.
  induction l as [l IH] using (induction_ltof1 _ (@length _)); unfold ltof in IH. intros Hl Hv.
  destruct l as [|x l]; [reflexivity|]. inversion Hl as [|? ? Hx Hl']; subst. destruct x as [c|n m].
  - destruct (valid_utf8_cases _ Hv) as [E|(ch & t & E & Hch & Ht)]; [discriminate|].
    assert (Hn : no_newline ch).
    { apply char_no_newline; [exact Hch|]. intros a t' ->. cbn in E. injection E as <- _. exact Hx. }
    destruct (cut_same ch _ t Hl Hn E) as (k & Ek & <-). rewrite Ek, right_app, right_same.
    rewrite valid_utf8_app; [|].
    + apply IH; [|rewrite Ek in Hl; apply Forall_app in Hl; apply Hl|exact Ht].
      rewrite Ek, app_length, map_length. destruct Hch; cbn [length]; lia.
    + rewrite <- (app_nil_r ch). rewrite valid_utf8_char_app by exact Hch. reflexivity.
  - destruct Hx as [Hn Hm]. change (right_text (Ends n m :: l)) with (m ++ right_text l).
    change (left_text (Ends n m :: l)) with (n ++ left_text l) in Hv. rewrite valid_newline in Hv |- * by assumption.
    apply IH; [cbn; lia|exact Hl'|exact Hv].
Qed.

(** ** Documents *)

Lemma move_tree_ext g h t : (forall x, g x = h x) -> move_tree g t = move_tree h t.
Proof.
  intros E. induction t as [r a b l IH] using tree_induction. cbn [move_tree]. rewrite !E. f_equal. apply map_ext_in.
  rewrite Forall_forall in IH. exact IH.
Qed.

Theorem parse_lines unq l d g : side_by_side l -> valid_utf8 (left_text l) = true -> (forall x, g x = across l x) ->
  parse unq (left_text l) = Ok d ->
  (forall i y c, In i (d_instructions d) -> In y (within (instruction_part i)) -> part_carried y = AString c ->
    quoted_text (text_at (left_text l) (part_span y)) -> no_newline (text_at (left_text l) (part_span y))) ->
  parse unq (right_text l) = Ok (move_dockerfile g (right_text l) d).
Proof.
  intros Hl V Eg H HP. pose proof (lines_valid l (proj1 Hl) V) as V'.
  pose proof (run_lines ctx0 R_dockerfile l eq_refl V V' Hl) as K.
  destruct (run ctx0 (Call R_dockerfile) 0 (left_text l)) as [q s' f| |] eqn:R;
    try (unfold parse in H; rewrite pest_parse_run, R in H; discriminate).
  destruct K as (k & l1 & _ & _ & _ & K). cbn [app at_right right_text flat_map length] in K.
  eapply (parse_same unq _ _ g d q s' f _ _ R); [|exact H|].
  - rewrite (map_ext _ (move_tree (across l))) by (intros t; apply move_tree_ext; exact Eg). exact K.
  - intros i y Hi Hy Hc. pose proof (parsed_parts unq (left_text l) d V H i y Hi Hy) as Hp. specialize (HP i y).
    destruct Hp as [p w c sub Hp Hw Hne Hcar _ _]. cbn [part_span part_carried] in *.
    rewrite (placed_text _ _ _ Hp) in HP |- *. unfold text_at, move_span, at_; cbn [s_start s_end]. rewrite !Eg.
    destruct Hp as (pre & post & E & -> & _). apply (across_text l pre w post (proj1 Hl) E Hne).
    destruct c as [|c|c]; [congruence| |].
    + destruct Hcar as [_ [Hn|Hq]]; [exact Hn|]. exact (HP c Hi Hy eq_refl Hq).
    + destruct Hcar as [_ (t & -> & Ht & _)]. constructor; [reflexivity|exact Ht].
Qed.

Theorem rejected_lines unq l : side_by_side l -> valid_utf8 (left_text l) = true ->
  parse unq (left_text l) = Err EParse -> parse unq (right_text l) = Err EParse.
Proof.
  intros Hl V H. pose proof (lines_valid l (proj1 Hl) V) as V'. apply rejected_run in H; [|exact V]. apply rejected_run; [exact V'|].
  pose proof (run_lines ctx0 R_dockerfile l eq_refl V V' Hl) as K. rewrite H in K. exact K.
Qed.

(** ** LF to CR LF *)

Definition crlf_mark (c : N) : mark := if (c =? LF)%N then Ends [LF] [CR; LF] else Same c.
Definition crlf_marks (s : bytes) : list mark := map crlf_mark s.

Lemma crlf_left s : left_text (crlf_marks s) = s.
Proof.
  induction s as [|c s IH]; [reflexivity|]. change (left_text (crlf_marks (c :: s))) with (mark_left (crlf_mark c) ++ left_text (crlf_marks s)).
  rewrite IH. unfold crlf_mark. destruct (N.eqb_spec c LF) as [->|_]; reflexivity.
Qed.
Lemma crlf_right s : right_text (crlf_marks s) = with_crlf s.
Proof.
  induction s as [|c s IH]; [reflexivity|]. change (right_text (crlf_marks (c :: s))) with (mark_right (crlf_mark c) ++ right_text (crlf_marks s)).
  rewrite IH. unfold crlf_mark. cbn [with_crlf flat_map]. destruct (N.eqb_spec c LF) as [->|_]; reflexivity.
Qed.
Lemma crlf_side s : ~ In CR s -> side_by_side (crlf_marks s).
Proof.
  induction s as [|c s IH]; intros H; [split; [constructor|exact I]|].
  destruct IH as [H1 H2]; [intros K; apply H; right; exact K|]. assert (Hc : c <> CR) by (intros ->; apply H; left; reflexivity).
  cbn [crlf_marks map]. split.
  - constructor; [|exact H1]. unfold crlf_mark. destruct (N.eqb_spec c LF) as [->|K]; [split; constructor|].
    cbn [mark_ok]. unfold is_newline_byte. rewrite (proj2 (N.eqb_neq _ _) K), (proj2 (N.eqb_neq _ _) Hc). reflexivity.
  - cbn [apart]. split; [|split; [|exact H2]]; unfold crlf_mark at 1; destruct (N.eqb_spec c LF) as [->|K]; cbn [mark_left mark_right]; intros E; try discriminate;
      injection E as ->; congruence.
Qed.
Lemma crlf_across s : forall x, x + breaks_before s x = across (crlf_marks s) x.
Proof.
  induction s as [|c s IH]; intros x.
  - unfold breaks_before. rewrite firstn_nil. cbn. lia.
  - cbn [crlf_marks map across]. fold (crlf_marks s). destruct x as [|x].
    + unfold crlf_mark. destruct (N.eqb_spec c LF); reflexivity.
    + unfold crlf_mark, breaks_before. cbn [firstn filter]. rewrite (N.eqb_sym LF c). destruct (N.eqb_spec c LF) as [->|K]; cbn [mark_left mark_right length];
        (replace (S x - 1) with x by lia); rewrite <- IH; unfold breaks_before; cbn [Nat.ltb Nat.leb length]; lia.
Qed.
