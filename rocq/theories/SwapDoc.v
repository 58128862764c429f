(** Parsing a document in which one image was replaced by another. *)

From Coq Require Import String.
From Verif Require Import Bytes BytesFacts Grammar Peg PegFacts Result Ast Image ImageFacts SpecImage SpecSyntax SpecMove Splicer Convert
  Dockerfile DocFacts PegRules PegTokens PegQuoted Sound SoundInstr Shift Swap ConvertMove SwapParse.
Local Open Scope nat_scope.

(** ** Tokens away from the image *)

Section Place.
Variables (A X Y B : bytes).
Hypothesis HX : X <> [].
Let src := A ++ X ++ B.
Let src' := A ++ Y ++ B.
Let g := replacement (length A) (length A + length X) (length Y).

Lemma slice_before a b : b <= length A -> slice src a b = slice src' (g a) (g b).
Proof.
  intros H. unfold g, src, src'. destruct (Nat.le_gt_cases a b) as [L|L].
  - unfold replacement. destruct (Nat.leb_spec a (length A)); [|lia]. destruct (Nat.leb_spec b (length A)); [|lia].
    unfold slice. rewrite !skipn_app, !firstn_app, !skipn_length. replace (b - a - (length A - a)) with 0 by lia.
    rewrite !firstn_O. reflexivity.
  - unfold slice. replace (b - a) with 0 by lia.
    assert (E : replacement (length A) (length A + length X) (length Y) b <= replacement (length A) (length A + length X) (length Y) a).
    { unfold replacement. destruct (Nat.leb_spec b (length A)); [|lia]. destruct (Nat.leb_spec a (length A)); lia. }
    replace (_ - _) with 0 by lia. reflexivity.
Qed.

Lemma slice_after a b : length A + length X <= a -> slice src a b = slice src' (g a) (g b).
Proof.
  intros H. unfold g, src, src'. destruct X as [|x0 X']; [congruence|]. cbn [length] in *.
  destruct (Nat.le_gt_cases a b) as [L|L].
  - unfold replacement. destruct (Nat.leb_spec a (length A)); [lia|]. destruct (Nat.leb_spec b (length A)); [lia|].
    unfold slice. f_equal; [lia|]. rewrite !skipn_app.
    rewrite !(skipn_all2 A) by lia. rewrite (skipn_all2 (x0 :: X')) by (cbn [length]; lia). rewrite (skipn_all2 Y) by lia. cbn [app length].
    f_equal. lia.
  - unfold slice. replace (b - a) with 0 by lia.
    match goal with |- _ = firstn (?u - ?v) _ => assert (E : u <= v) end.
    { unfold replacement. destruct (Nat.leb_spec b (length A)); destruct (Nat.leb_spec a (length A)); lia. }
    match goal with |- _ = firstn (?u - ?v) _ => replace (u - v) with 0 by lia end. reflexivity.
Qed.

Lemma settled_before t : forall a b, tree_within a b t -> b <= length A -> settled src src' g t.
Proof.
  induction t as [r x y l IH] using tree_induction. intros a b H Hb. apply tree_within_node in H. destruct H as (H1 & H2 & H3 & H4).
  apply settled_node. split; [apply slice_before; lia|]. rewrite Forall_forall in *. intros t Ht.
  apply (IH t Ht x y); [apply H4; exact Ht|lia].
Qed.

Lemma settled_after t : forall a b, tree_within a b t -> length A + length X <= a -> settled src src' g t.
Proof.
  induction t as [r x y l IH] using tree_induction. intros a b H Hb. apply tree_within_node in H. destruct H as (H1 & H2 & H3 & H4).
  apply settled_node. split; [apply slice_after; lia|]. rewrite Forall_forall in *. intros t Ht.
  apply (IH t Ht x y); [apply H4; exact Ht|lia].
Qed.

End Place.

(** ** The loop over the document *)

Section Steps.
Variable unq : bytes -> option bytes.

Definition behind (l : list instruction) (st : doc_state) : doc_state :=
  DocState (l ++ ds_instructions st) (ds_global_args st) (ds_from_found st) (ds_from_index st).

Lemma doc_step_behind src l st t : doc_step unq src (behind l st) t = omap (behind l) (doc_step unq src st t).
Proof.
  unfold doc_step. destruct (t_rule t); try reflexivity;
    (destruct (instruction_of unq src t) as [i|e| |]; [|reflexivity..]; cbn [bind];
     destruct i; cbn [omap behind ds_instructions ds_global_args ds_from_found ds_from_index];
     unfold behind; cbn [ds_instructions ds_global_args ds_from_found ds_from_index]; rewrite app_assoc; reflexivity).
Qed.

Lemma doc_steps_behind src f l st : for_each (doc_step unq src) f (behind l st) = omap (behind l) (for_each (doc_step unq src) f st).
Proof.
  revert st. induction f as [|t f IH]; intros st; [reflexivity|]. cbn [for_each].
  apply (bind_move (behind l)); [apply doc_step_behind|]. intros st'. apply IH.
Qed.

(** A step adds at most one instruction. *)
Lemma doc_step_adds src st t st' : doc_step unq src st t = Ok st' ->
  (st' = st) \/
  exists i, ds_instructions st' = ds_instructions st ++ [i] /\
    match i with
    | IFrom f => exists f0, t_rule t = R_from /\ from_of unq src t 0 = Ok f0 /\ f = set_index f0 (ds_from_index st) /\
        st' = DocState (ds_instructions st ++ [i]) (ds_global_args st) true (S (ds_from_index st))
    | _ => True
    end.
Proof.
  unfold doc_step. intros H.
  destruct (t_rule t) eqn:Er; try (left; congruence); right;
    unfold instruction_of in H; rewrite Er in H; try discriminate;
    (match type of H with bind (bind ?o _) _ = _ => destruct o as [i|e| |] eqn:Eo end; try discriminate; cbn [bind] in H; injection H as <-;
     eexists; split; [reflexivity|]; cbn beta iota; try exact I).
  exists i. repeat split.
Qed.

Lemma doc_steps_keep src f : forall st st', for_each (doc_step unq src) f st = Ok st' ->
  exists r, ds_instructions st' = ds_instructions st ++ r.
Proof.
  induction f as [|t f IH]; intros st st' H; cbn [for_each] in H.
  - injection H as <-. exists []. rewrite app_nil_r. reflexivity.
  - destruct (doc_step unq src st t) as [st1|e| |] eqn:Es; try discriminate. cbn [bind] in H. destruct (IH _ _ H) as (r & ->).
    destruct (doc_step_adds _ _ _ _ Es) as [->|(j & -> & _)]; [exists r; reflexivity|exists (j :: r); rewrite <- app_assoc; reflexivity].
Qed.

(** Where an instruction came from *)
Lemma doc_steps_find src f : forall st st' l1 i l2, for_each (doc_step unq src) f st = Ok st' ->
  ds_instructions st' = ds_instructions st ++ l1 ++ i :: l2 ->
  exists fa t fb sta stb, f = fa ++ t :: fb /\ for_each (doc_step unq src) fa st = Ok sta /\
    ds_instructions sta = ds_instructions st ++ l1 /\ doc_step unq src sta t = Ok stb /\
    ds_instructions stb = ds_instructions sta ++ [i] /\ for_each (doc_step unq src) fb stb = Ok st'.
Proof.
  induction f as [|t f IH]; intros st st' l1 i l2 H E; cbn [for_each] in H.
  - injection H as <-. rewrite <- (app_nil_r (ds_instructions st)) in E at 1. apply app_inv_head in E. destruct l1; discriminate.
  - destruct (doc_step unq src st t) as [st1|e| |] eqn:Es; try discriminate. cbn [bind] in H.
    destruct (doc_step_adds _ _ _ _ Es) as [->|(j & Ej & Hj)].
    + destruct (IH _ _ _ _ _ H E) as (fa & u & fb & sta & stb & -> & E1 & E2 & E3 & E4 & E5).
      exists (t :: fa), u, fb, sta, stb. split; [reflexivity|]. split; [cbn [for_each]; rewrite Es; exact E1|]. auto.
    + destruct l1 as [|k l1].
      * exists [], t, f, st, st1. split; [reflexivity|]. split; [reflexivity|]. split; [rewrite app_nil_r; reflexivity|].
        split; [exact Es|]. split; [|exact H]. rewrite Ej. f_equal.
        pose proof (doc_steps_keep _ _ _ _ H) as K.
        destruct K as (r & K). rewrite K, Ej, <- app_assoc in E. apply app_inv_head in E. cbn [app] in E. injection E as -> _. reflexivity.
      * pose proof (doc_steps_keep _ _ _ _ H) as K.
        destruct K as (r & K). pose proof E as E0. rewrite K, Ej, <- app_assoc in E. apply app_inv_head in E. cbn [app] in E. injection E as -> _.
        destruct (IH st1 st' l1 i l2 H) as (fa & u & fb & sta & stb & -> & E1 & E2 & E3 & E4 & E5).
        { rewrite E0, Ej, <- app_assoc. reflexivity. }
        exists (t :: fa), u, fb, sta, stb. split; [reflexivity|]. split; [cbn [for_each]; rewrite Es; exact E1|].
        split; [rewrite E2, Ej, <- app_assoc; reflexivity|]. auto.
Qed.

(** The image of a FROM *)
Lemma from_image_of src r p q c1 img c2 n f : t_rule img = R_from_image -> Forall (fun t => t_rule t <> R_from_image) c2 ->
  starts_quoted (as_str src img) = false -> from_of unq src (Node r p q (c1 ++ img :: c2)) n = Ok f ->
  from_image f = SpannedString (span_of img) (as_str src img).
Proof.
  intros Hr Hr2 Hq H.
  change (('(image_field, alias_field, flags) <- for_each (from_loop unq src) (c1 ++ img :: c2) (None, None, []);;
    image <- match image_field with Some f => parse_string unq src f | None => generic "missing from image" end;;
    let image_parsed := image_parse (ss_content image) in
    _ <- match i_hash image_parsed with
         | Some hash => if digest_ok hash then Ok tt else generic "image reference digest is invalid"
         | None => Ok tt
         end;;
    alias <- match alias_field with Some f => x <- parse_string unq src f;; Ok (Some x) | None => Ok None end;;
    Ok (FromInstruction (Span p q) flags image image_parsed n alias)) = Ok f) in H.
  destruct (for_each (from_loop unq src) (c1 ++ img :: c2) (None, None, [])) as [[[i a] fl]|e| |] eqn:El; try discriminate.
  cbn [bind] in *.
  assert (Ei : i = Some img).
  { rewrite for_each_app in El. destruct (for_each (from_loop unq src) c1 (None, None, [])) as [[[i1 a1] fl1]|e| |]; try discriminate.
    cbn [bind for_each] in El. unfold from_loop in El at 1. rewrite Hr in El. cbn [bind] in El.
    apply (loop_image _ _ _ Hr2) in El. exact El. }
  subst i. unfold parse_string at 1 in H. rewrite Hq in H. cbn [bind] in H.
  destruct (match i_hash _ with Some hash => _ | None => _ end); try discriminate. cbn [bind] in H.
  destruct (match a with Some f => _ | None => _ end) as [al|e| |]; try discriminate. cbn [bind] in *.
  injection H as <-. reflexivity.
Qed.

Lemma image_unquoted w : image_text w -> starts_quoted w = false.
Proof.
  intros [_ H]. destruct w as [|c w]; [reflexivity|]. inversion H as [|x l Hc Hw]; subst. cbn [starts_quoted]. unfold is_quote.
  destruct (N.eqb_spec c DQUOTE) as [->|]; [discriminate|]. destruct (N.eqb_spec c SQUOTE) as [->|]; [discriminate|].
  destruct (N.eqb_spec c BACKTICK) as [->|]; [discriminate|]. reflexivity.
Qed.

(** ** The document with another image *)

Lemma parse_replace input d l1 f l2 : valid_utf8 input = true -> parse unq input = Ok d -> d_instructions d = l1 ++ IFrom f :: l2 ->
  exists pre post, input = pre ++ ss_content (from_image f) ++ post /\ ss_content (from_image f) <> [] /\
    ss_span (from_image f) = Span (length pre) (length pre + length (ss_content (from_image f))) /\
    forall new r, image_accepted new r ->
    forall g, g = replacement (length pre) (length pre + length (ss_content (from_image f))) (length new) ->
      valid_utf8 (pre ++ new ++ post) = true /\
      parse unq (pre ++ new ++ post) = Ok (Dockerfile (pre ++ new ++ post) (map (move_arg g) (d_global_args d))
        (map (move_instruction g) l1 ++ IFrom (with_image (move_from g f) new r) :: map (move_instruction g) l2)).
Proof.
  intros Hv H El. unfold parse in H. rewrite pest_parse_run in H.
  destruct (run ctx0 (Call R_dockerfile) 0 input) as [q s' fs| |] eqn:R; try discriminate.
  pose proof R as R0. apply call_inv in R0. destruct R0 as (f' & R0 & Ef).
  cbn [grammar fst snd rule_inner rule_tokens wrap emits ctx0 look atom] in Ef. subst fs.
  cbn [grammar fst snd rule_inner] in R0. change (rule_outer Normal ctx0) with ctx0 in R0.
  pose proof (run_ordered _ _ _ _ _ _ _ R0) as Ho.
  assert (s' = []) as ->.
  { apply seq_inv in R0; [|reflexivity]. destruct R0 as (p1 & s1 & f1 & f2 & _ & R0 & _).
    apply seq_inv in R0; [|reflexivity]. destruct R0 as (p2 & s2 & f3 & f4 & _ & R0 & _).
    apply seq_inv in R0; [|reflexivity]. destruct R0 as (p3 & s3 & f5 & f6 & _ & R0 & _).
    apply call_inv in R0. destruct R0 as (fe & R0 & _). cbn [grammar fst snd] in R0. rewrite run_eoi in R0.
    destruct s3; [congruence|discriminate]. }
  clear R0. change (wrap (rule_outer Normal ctx0) R_dockerfile 0 q f') with [Node R_dockerfile 0 q f'] in *. cbn [t_children] in H.
  destruct (for_each (doc_step unq input) f' (DocState [] [] false 0)) as [st|e| |] eqn:Est; try discriminate.
  cbn [bind] in H. injection H as <-. cbn [d_instructions d_global_args] in *.
  destruct (doc_steps_find _ _ _ _ l1 (IFrom f) l2 Est El) as (fa & t & fb & sta & stb & -> & E1 & E2 & E3 & E4 & E5).
  cbn [ds_instructions app] in E2.
  destruct (doc_step_adds _ _ _ _ E3) as [K|(i & Ei & Hi)].
  { exfalso. rewrite K in E4. apply (f_equal (@length _)) in E4. rewrite app_length in E4. cbn [length] in E4. lia. }
  rewrite Ei in E4. apply app_inv_head in E4. injection E4 as ->. destruct Hi as (f0 & Hr & Hf & -> & Estb).
  assert (Hin : In t (fa ++ t :: fb)) by (apply in_or_app; right; left; reflexivity).
  destruct (document_token _ _ _ _ Hv R Hin Hr) as (P & U & w & s & q1 & s2 & -> & EP & Hw & HU & RF & Hs2).
  assert (VP : valid_utf8 P = true /\ valid_utf8 s = true).
  { destruct (PegFacts.run_consumes _ _ _ _ _ _ _ RF) as (w0 & Es & _).
    assert (Hc : exists c t0, s = c :: t0 /\ (c < 128)%N).
    { apply token_inv in RF; [|discriminate]. destruct RF as (l & RF & _).
      cbn [grammar fst snd rule_inner] in RF. apply seq_inv in RF; [|reflexivity]. destruct RF as (p0 & x0 & f1 & f2 & RF & _ & _).
      apply (keyword_inv "from") in RF; [|reflexivity]. destruct RF as (kw & -> & _ & Hkw & _).
      destruct (keyword_head kw x0 Hkw) as (c & t0 & -> & Hc). exists c, t0. split; [reflexivity|].
      unfold lower_byte in Hc. destruct (is_upper c) eqn:Eu; [|lia]. unfold is_upper in Eu. lia. }
    destruct Hc as (c & s0 & -> & Hc). apply (valid_utf8_cut _ Hv P (c :: s0) eq_refl).
    unfold is_cont, in_range. destruct (N.leb_spec 128 c); [lia|reflexivity]. }
  destruct VP as [VP Vs].
  destruct (from_tokens _ _ _ _ _ Vs RF) as (K & X & B & c1 & c2 & -> & HX & VK & VB & HK & Hend & Hhead & Et & N1 & N2 & W1 & W2 & Lq).
  injection Et as ->. cbn [t_rule t_start t_stop] in *.
  assert (EX : as_str (P ++ K ++ X ++ B) (Node R_from_image (length P + length K) (length P + length K + length X) []) = X).
  { unfold as_str. cbn [t_start t_stop]. rewrite <- app_length. rewrite (app_assoc P K). apply slice_app. }
  pose proof (from_image_of _ _ _ _ _ (Node R_from_image (length P + length K) (length P + length K + length X) []) _ _ _ eq_refl N2
    (eq_trans (f_equal _ EX) (image_unquoted _ HX)) Hf) as Eimg.
  rewrite EX in Eimg. cbn [span_of t_start t_stop] in Eimg.
  cbn [set_index from_image]. rewrite Eimg. cbn [ss_content ss_span].
  exists (P ++ K), B. rewrite <- app_assoc. split; [reflexivity|]. split; [apply HX|]. split; [rewrite app_length; reflexivity|].
  intros new r (Hnew & Href & Hdig) g Eg. rewrite <- !app_assoc.
  assert (HB : match B with c :: _ => image_char c = false /\ c <> EQUALS | [] => True end).
  { destruct Hend as [[E Hh]|Hh]; [|exact Hh]. subst s2. destruct B as [|c B']; [exact I|].
    destruct (break_cases _ Hs2) as [->|[->|[->| ->]]]; split; (reflexivity || discriminate). }
  split.
  { rewrite valid_utf8_app by exact VP. rewrite valid_utf8_app by exact VK.
    rewrite valid_utf8_ascii_app by (apply image_text_ascii; exact Hnew). exact VB. }
  assert (Rn : run ctx0 (Call R_dockerfile) 0 (before P K ++ new ++ B) =
    Done (moved P K X new q) [] [Node R_dockerfile 0 (moved P K X new q) (map (move_tree (moved P K X new)) (fa ++ Node R_from (length P) q1 (c1 ++ Node R_from_image (length P + length K) (length P + length K + length X) [] :: c2) :: fb))]).
  { eapply (swapped_document P K X new B HX Hnew VB HB HK); [exists U, w; auto|exact VP|exact VK|apply Hhead; reflexivity| | |exact Hin|].
    - reflexivity.
    - discriminate.
    - unfold before. rewrite <- app_assoc. exact R. }
  unfold before in Rn. rewrite <- app_assoc in Rn.
  assert (Egm : moved P K X new = g) by (rewrite Eg; unfold moved, before; reflexivity).
  rewrite Egm in Rn. unfold parse. rewrite pest_parse_run, Rn. cbn [t_children].
  apply ordered_split in Ho. destruct Ho as (Wa & Wt & Wb). cbn [t_start t_stop] in *.
  assert (Sa : Forall (settled (P ++ K ++ X ++ B) (P ++ K ++ new ++ B) g) fa).
  { eapply Forall_impl; [|exact Wa]. intros u Hu. rewrite (app_assoc P K (X ++ B)), (app_assoc P K (new ++ B)), Eg.
    eapply settled_before; [exact Hu|]. rewrite app_length. lia. }
  assert (Sb : Forall (settled (P ++ K ++ X ++ B) (P ++ K ++ new ++ B) g) fb).
  { eapply Forall_impl; [|exact Wb]. intros u Hu. rewrite (app_assoc P K (X ++ B)), (app_assoc P K (new ++ B)), Eg.
    eapply settled_after; [exact (proj1 HX)|exact Hu|]. rewrite app_length. lia. }
  assert (S1 : Forall (settled (P ++ K ++ X ++ B) (P ++ K ++ new ++ B) g) c1).
  { eapply Forall_impl; [|exact W1]. intros u Hu. rewrite (app_assoc P K (X ++ B)), (app_assoc P K (new ++ B)), Eg.
    eapply settled_before; [exact Hu|]. rewrite app_length. lia. }
  assert (S2 : Forall (settled (P ++ K ++ X ++ B) (P ++ K ++ new ++ B) g) c2).
  { eapply Forall_impl; [|exact W2]. intros u Hu. rewrite (app_assoc P K (X ++ B)), (app_assoc P K (new ++ B)), Eg.
    eapply settled_after; [exact (proj1 HX)|exact Hu|]. rewrite app_length. lia. }
  rewrite map_app. cbn [map]. rewrite for_each_app.
  change (DocState [] [] false 0) with (move_state g (DocState [] [] false 0)).
  rewrite (doc_steps_move unq _ _ g fa Sa), E1. cbn [omap bind for_each].
  assert (Em : as_str (P ++ K ++ new ++ B) (move_tree g (Node R_from_image (length P + length K) (length P + length K + length X) [])) = new).
  { unfold as_str. cbn [move_tree t_start t_stop]. rewrite Eg, app_length. unfold replacement.
    destruct HX as [HX0 _]. destruct X as [|x0 X']; [congruence|]. cbn [length].
    destruct (Nat.leb_spec (length P + length K) (length P + length K)); [|lia].
    destruct (Nat.leb_spec (length P + length K + S (length X')) (length P + length K)); [lia|].
    rewrite Nat.sub_diag. cbn [Nat.add]. rewrite <- app_length, (app_assoc P K). apply slice_app. }
  pose proof (from_move unq _ _ g R_from (length P) q1 c1 _ c2 0 f0 S1 S2 (eq_refl : t_rule (Node R_from_image _ _ []) = _) N2 Hf new r
    (eq_sym (proj2 (image_parse_spec new r) Href)) Em (image_unquoted _ Hnew)
    (fun h Hh => proj2 (digest_ok_spec h) (Hdig h Hh))) as Hfm.
  unfold doc_step at 1. cbn [move_tree t_rule]. unfold instruction_of at 1. cbn [t_rule].
  cbn [move_tree] in Hfm. rewrite Hfm. cbn [bind ds_instructions ds_global_args ds_from_found ds_from_index move_state].
  rewrite E2.
  assert (Ebe : exists l0, for_each (doc_step unq (P ++ K ++ X ++ B)) fb (DocState [] (ds_global_args sta) true (S (ds_from_index sta))) = Ok l0 /\
    st = behind (ds_instructions stb) l0).
  { pose proof (doc_steps_behind (P ++ K ++ X ++ B) fb (ds_instructions stb) (DocState [] (ds_global_args sta) true (S (ds_from_index sta)))) as Kb.
    unfold behind in Kb at 1. cbn [ds_instructions ds_global_args ds_from_found ds_from_index] in Kb. rewrite app_nil_r in Kb.
    rewrite Ei, <- Estb, E5 in Kb. destruct (for_each (doc_step unq (P ++ K ++ X ++ B)) fb (DocState [] (ds_global_args sta) true (S (ds_from_index sta)))) as [l0|e| |]; try discriminate. cbn [omap] in Kb. injection Kb as Kb.
    exists l0. split; [reflexivity|]. rewrite Kb, Ei. reflexivity. }
  destruct Ebe as (l0 & El0 & ->).
  cbn [behind ds_instructions ds_global_args] in El |- *. rewrite Ei, E2, <- app_assoc in El. apply app_inv_head in El.
  cbn [app] in El. injection El as El.
  pose proof (doc_steps_move unq _ _ g fb Sb (DocState [] (ds_global_args sta) true (S (ds_from_index sta)))) as Hm.
  rewrite El0 in Hm. unfold move_state in Hm at 1. cbn [omap map ds_instructions ds_global_args ds_from_found ds_from_index] in Hm.
  match goal with |- context [for_each _ _ (DocState ?L ?G ?F ?N)] =>
    pose proof (doc_steps_behind (P ++ K ++ new ++ B) (map (move_tree g) fb) L (DocState [] G F N)) as Hb2 end.
  unfold behind in Hb2 at 1. cbn [ds_instructions ds_global_args ds_from_found ds_from_index] in Hb2. rewrite app_nil_r in Hb2.
  rewrite Hb2, Hm. cbn [omap bind behind move_state ds_instructions ds_global_args]. rewrite El, <- app_assoc. cbn [app].
  reflexivity.
Qed.

End Steps.
