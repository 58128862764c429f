(** Edits of clearly written documents. *)

From Coq Require Import String.
From Verif Require Import Bytes BytesFacts Ast SpecImage SpecSyntax SpecClear SpecDoc SpecMove MoveFacts Result Splicer
  SpecSplice Dockerfile DocFacts Forward Forward5.
Local Open Scope nat_scope.

(** ** Replacing an image *)

Lemma replacement_before a b n p k : p + k <= a -> moves (replacement a b n) p k.
Proof.
  intros H q H1 H2. unfold replacement. destruct (Nat.leb_spec q a); [|lia]. destruct (Nat.leb_spec p a); [|lia]. lia.
Qed.
Lemma replacement_after a b n p k : a < b -> b <= p -> moves (replacement a b n) p k.
Proof.
  intros H Hp q H1 H2. unfold replacement. destruct (Nat.leb_spec q a); [lia|]. destruct (Nat.leb_spec p a); [lia|]. lia.
Qed.
Lemma replacement_id a b n p : p <= a -> replacement a b n p = p.
Proof. intros H. unfold replacement. destruct (Nat.leb_spec p a); [reflexivity|lia]. Qed.
Lemma replacement_shift a b n p : a < b -> b <= p -> replacement a b n p = p - b + (a + n).
Proof. intros H Hp. unfold replacement. destruct (Nat.leb_spec p a); [lia|reflexivity]. Qed.

Section Edit.
Variable unq : bytes -> option bytes.

Lemma from_replace p w f : clear_from_at unq p w f ->
  exists pre post, w = pre ++ ss_content (from_image f) ++ post /\ ss_content (from_image f) <> [] /\
    ss_span (from_image f) = at_ (p + length pre) (ss_content (from_image f)) /\
    forall new r, image_ok new r ->
    forall g, g = replacement (p + length pre) (p + length pre + length (ss_content (from_image f))) (length new) ->
    clear_from_at unq p (pre ++ new ++ post) (with_image (move_from g f) new r).
Proof.
  intros (kw & fl & k & gp & img & al & -> & H1 & H2 & H3 & H4 & H5 & H6 & H7 & H8 & H9 & H10 & H11).
  exists (kw ++ fl ++ gp), al. rewrite H7. cbn [ss_content ss_span]. destruct H5 as [Hne H5].
  split; [rewrite <- !app_assoc; reflexivity|]. split; [exact Hne|].
  split; [rewrite !app_length, !Nat.add_assoc; reflexivity|].
  intros new r (K1 & K2 & K3 & K4) g Eg.
  assert (Hpos : 0 < length img) by (destruct img; [congruence|cbn; lia]).
  assert (Hg : forall q, q <= p + length (kw ++ fl ++ gp) -> g q = q) by (intros q Hq; rewrite Eg; apply replacement_id; exact Hq).
  rewrite !app_length in *.
  exists kw, fl, k, gp, new, al. split; [rewrite <- !app_assoc; reflexivity|]. split; [exact H1|].
  cbn [with_image move_from from_flags from_image from_image_parsed from_alias from_span].
  split.
  { rewrite <- (Hg (p + length kw)) by lia. apply spaced_move; [|rewrite Eg; apply replacement_before; rewrite ?app_length; lia|exact H2].
    intros. apply flag_move; assumption. }
  split; [exact H3|]. split; [exact H4|]. split; [exact K1|]. split; [exact K2|]. split.
  { rewrite H7. unfold move_string, move_span, at_. cbn. f_equal. f_equal; [rewrite Hg by lia; lia|].
    rewrite Eg. rewrite replacement_shift; rewrite ?app_length; lia. }
  split; [exact K3|]. split; [exact K4|]. split.
  { assert (E : g (p + length kw + length fl + length gp + length img) = p + length kw + length fl + length gp + length new).
    { rewrite Eg. rewrite replacement_shift; rewrite ?app_length; lia. }
    rewrite <- E. apply alias_move; [|exact H10]. rewrite Eg. apply replacement_after; rewrite ?app_length; lia. }
  rewrite H11. unfold move_span, at_. cbn. f_equal; [apply Hg; lia|].
  rewrite Eg. rewrite replacement_shift; rewrite ?app_length; lia.
Qed.

Lemma single_split {A} (l1 l2 : list A) x y : [x] = l1 ++ y :: l2 -> l1 = [] /\ l2 = [] /\ x = y.
Proof. destruct l1 as [|z [|z2 l1]]; intros E; try discriminate. injection E as <- <-. auto. Qed.

Lemma document_replace p w l : clear_document_at unq p w l -> forall l1 f l2, l = l1 ++ IFrom f :: l2 ->
  exists pre post, w = pre ++ ss_content (from_image f) ++ post /\ ss_content (from_image f) <> [] /\
    ss_span (from_image f) = at_ (p + length pre) (ss_content (from_image f)) /\
    forall new r, image_ok new r ->
    forall g, g = replacement (p + length pre) (p + length pre + length (ss_content (from_image f))) (length new) ->
    clear_document_at unq p (pre ++ new ++ post)
      (map (move_instruction g) l1 ++ IFrom (with_image (move_from g f) new r) :: map (move_instruction g) l2).
Proof.
  assert (L : forall p w l, clear_line_at unq p w l -> forall l1 f l2, l = l1 ++ IFrom f :: l2 -> l1 = [] /\ l2 = [] /\
    exists pre post, w = pre ++ ss_content (from_image f) ++ post /\ ss_content (from_image f) <> [] /\
    ss_span (from_image f) = at_ (p + length pre) (ss_content (from_image f)) /\
    forall new r, image_ok new r ->
    forall g, g = replacement (p + length pre) (p + length pre + length (ss_content (from_image f))) (length new) ->
    clear_line_at unq p (pre ++ new ++ post) [IFrom (with_image (move_from g f) new r)]).
  { clear. intros p w l H l1 f l2 E. destruct H as [p b Hb|p b t Hb Ht|p b w b2 i Hb Hi Hb2|p b w i Hb Hi].
    - destruct l1; discriminate.
    - destruct l1; discriminate.
    - apply single_split in E. destruct E as (-> & -> & ->). split; [reflexivity|]. split; [reflexivity|].
      destruct (from_replace _ _ _ Hi) as (pre & post & -> & Hne & Hsp & Hnew). exists (b ++ pre), (post ++ b2).
      split; [rewrite <- !app_assoc; reflexivity|]. split; [exact Hne|].
      rewrite app_length, Nat.add_assoc. split; [exact Hsp|].
      intros new r K g Eg. rewrite <- !app_assoc. rewrite (app_assoc pre), (app_assoc _ post), <- (app_assoc pre).
      apply (clear_closed unq p b (pre ++ new ++ post) b2); [exact Hb| |exact Hb2]. apply Hnew with (g := g); [exact K|]. rewrite ?app_length, ?Nat.add_assoc in *. exact Eg.
    - apply single_split in E. destruct E as (-> & -> & ->). contradiction Hi. }
  induction 1 as [p w l H|p w n w2 l l' H Hn Hd IH]; intros l1 f l2 E.
  - destruct (L _ _ _ H _ _ _ E) as (-> & -> & pre & post & -> & Hne & Hsp & Hnew).
    exists pre, post. split; [reflexivity|]. split; [exact Hne|]. split; [exact Hsp|].
    intros new r K g Eg. apply clear_last. apply Hnew with (g := g); [exact K|]. rewrite ?app_length, ?Nat.add_assoc in *. exact Eg.
  - assert (Hcase : (exists m, l = l1 ++ IFrom f :: m /\ l2 = m ++ l') \/ (exists m, l1 = l ++ m /\ l' = m ++ IFrom f :: l2)).
    { clear - E. apply app_eq_app in E. destruct E as (m & [[E1 E2]|[E1 E2]]).
      - destruct m as [|x m].
        + rewrite app_nil_r in E1. cbn in E2. right. exists []. rewrite app_nil_r. auto.
        + left. injection E2 as <- ->. exists m. auto.
      - right. exists m. auto. }
    destruct Hcase as [(m & -> & ->)|(m & -> & ->)].
    + destruct (L _ _ _ H _ _ _ eq_refl) as (-> & -> & pre & post & -> & Hne & Hsp & Hnew). cbn [app].
      exists pre, (post ++ n ++ w2). split; [rewrite <- !app_assoc; reflexivity|]. split; [exact Hne|]. split; [exact Hsp|].
      intros new r K g Eg. replace (pre ++ new ++ post ++ n ++ w2) with ((pre ++ new ++ post) ++ n ++ w2) by (rewrite <- !app_assoc; reflexivity).
      apply (clear_more unq p (pre ++ new ++ post) n w2 [IFrom (with_image (move_from g f) new r)]);
        [apply Hnew with (g := g); [exact K|exact Eg]|exact Hn|].
      assert (Hpos : 0 < length (ss_content (from_image f))) by (destruct (ss_content (from_image f)); [congruence|cbn; lia]).
      rewrite !app_length in Hd.
      match type of Hd with clear_document_at _ ?q _ _ =>
        replace (p + length (pre ++ new ++ post) + length n) with (g q) by (rewrite Eg; rewrite replacement_shift; rewrite ?app_length; lia) end.
      apply document_move; [exact Hd|]. rewrite Eg. apply replacement_after; lia.
    + destruct (IH _ _ _ eq_refl) as (pre & post & -> & Hne & Hsp & Hnew).
      exists (w ++ n ++ pre), post. split; [rewrite <- !app_assoc; reflexivity|]. split; [exact Hne|].
      rewrite !app_length, !Nat.add_assoc. split; [exact Hsp|].
      intros new r K g Eg. rewrite <- !app_assoc, map_app, <- app_assoc. apply clear_more; [|exact Hn|].
      * assert (E1 : g p = p) by (rewrite Eg; apply replacement_id; lia). rewrite <- E1 at 1. apply line_move; [|exact H].
        rewrite Eg. apply replacement_before. lia.
      * apply Hnew with (g := g); [exact K|]. rewrite ?app_length, ?Nat.add_assoc in *. exact Eg.
Qed.

(** ** Inserting and removing lines *)

Lemma insertion_before a n p k : p + k < a -> moves (insertion a n) p k.
Proof.
  intros H q H1 H2. unfold insertion. destruct (Nat.ltb_spec q a); [|lia]. destruct (Nat.ltb_spec p a); lia.
Qed.
Lemma insertion_after a n p k : a <= p -> moves (insertion a n) p k.
Proof.
  intros H q H1 H2. unfold insertion. destruct (Nat.ltb_spec q a); [lia|]. destruct (Nat.ltb_spec p a); lia.
Qed.

Lemma closed_span p w i : clear_closed_at unq p w i -> instruction_span i = at_ p w.
Proof.
  destruct i as [x|x|x|x|x|x|x|x|x]; cbn [clear_closed_at instruction_span].
  - intros (kw & fl & k & gp & img & al & E & H). apply H.
  - intros (kw & k & gp & name & rest & E & H). apply H.
  - intros (kw & j & g1 & n & k & c & g2 & v & lb & E & H). destruct H as (_ & _ & _ & _ & _ & _ & _ & _ & _ & ->). reflexivity.
  - intros (kw & gp & cmd & a & E & H). apply H.
  - intros (kw & gp & cmd & a & E & H). apply H.
  - intros (kw & gp & cmd & a & E & H). apply H.
  - intros (kw & fl & paths & E & H). apply H.
  - intros (kw & j & g1 & n & k & g2 & v & e & E & H). destruct H as (_ & _ & _ & _ & _ & _ & _ & _ & _ & ->). reflexivity.
  - contradiction.
Qed.

Lemma open_span p w i : clear_open_at unq p w i -> instruction_span i = at_ p w.
Proof.
  destruct i as [x|x|x|x|x|x|x|x|x]; cbn [clear_open_at instruction_span]; try contradiction.
  - intros (kw & pairs & b & E & H). apply H.
  - intros (kw & gp & cmd & a & E & H). apply H.
  - intros (kw & gp & cmd & a & E & H). apply H.
  - intros (kw & gp & cmd & a & E & H). apply H.
  - intros [(kw & pairs & b & E & H)|(kw & j & g1 & n & k & g2 & v & e & E & H)]; [apply H|].
    destruct H as (_ & _ & _ & _ & _ & _ & _ & _ & _ & _ & _ & ->). reflexivity.
  - intros (name & args & E & H). apply H.
Qed.

Lemma blanks_no_newline b : blanks b -> no_newline b.
Proof.
  apply Forall_impl. intros x Hx. unfold is_blank in Hx. apply orb_true_iff in Hx. rewrite !N.eqb_eq in Hx.
  destruct Hx; subst; reflexivity.
Qed.

Lemma comment_no_newline t : comment_text t -> no_newline t.
Proof. intros (u & -> & Hu & _). constructor; [reflexivity|exact Hu]. Qed.

Lemma no_newline_ends b s pre post : no_newline b -> b ++ s = pre ++ post -> pre <> [] -> ends_line pre -> length b < length pre.
Proof.
  intros Hb E Hne [->|(t & c & -> & Hc)]; [congruence|]. rewrite <- app_assoc in E. cbn [app] in E.
  rewrite app_length. cbn [length]. apply app_eq_app in E. destruct E as (m & [[-> E2]|[-> E2]]).
  - destruct m as [|x m]; [rewrite app_nil_r; lia|]. cbn [app] in E2. injection E2 as <- _.
    apply Forall_app in Hb. destruct Hb as [_ Hb]. inversion Hb. congruence.
  - rewrite app_length. lia.
Qed.

Lemma newline_not_after u b pre post : no_newline b -> u ++ b = pre ++ post -> pre <> [] -> ends_line pre -> length pre <= length u.
Proof.
  intros Hb E Hne [->|(t & c & -> & Hc)]; [congruence|]. rewrite <- app_assoc in E. cbn [app] in E.
  rewrite app_length. cbn [length]. apply app_eq_app in E. destruct E as (m & [[-> E2]|[-> E2]]).
  - destruct m as [|x m]; [|rewrite app_length; cbn [length]; lia]. cbn [app] in E2. subst b. inversion Hb. congruence.
  - subst b. apply Forall_app in Hb. destruct Hb as [_ Hb]. inversion Hb. congruence.
Qed.

(** A line has no other line in it, unless in an instruction. *)
Lemma line_outside p w l pre post : clear_line_at unq p w l -> w = pre ++ post -> pre <> [] -> ends_line pre ->
  (forall i, In i l -> outside (p + length pre) i) -> False.
Proof.
  intros H E Hne He Ho. destruct H as [p b Hb|p b t Hb Ht|p b w b2 i Hb Hi Hb2|p b w i Hb Hi].
  - pose proof (no_newline_ends b [] pre post (blanks_no_newline _ Hb)) as K. rewrite app_nil_r in K. specialize (K E Hne He).
    subst b. rewrite app_length in K. lia.
  - assert (Hbt : no_newline (b ++ t)) by (apply Forall_app; split; [apply blanks_no_newline; exact Hb|apply comment_no_newline; exact Ht]).
    pose proof (no_newline_ends (b ++ t) [] pre post Hbt) as K. rewrite app_nil_r in K. specialize (K E Hne He).
    rewrite E, app_length in K. lia.
  - pose proof (no_newline_ends b _ pre post (blanks_no_newline _ Hb) E Hne He) as K1.
    rewrite app_assoc in E. pose proof (newline_not_after _ b2 pre post (blanks_no_newline _ Hb2) E Hne He) as K2.
    specialize (Ho i (or_introl eq_refl)). unfold outside in Ho. rewrite (closed_span _ _ _ Hi) in Ho. cbn in Ho.
    rewrite app_length in K2. lia.
  - pose proof (no_newline_ends b _ pre post (blanks_no_newline _ Hb) E Hne He) as K1.
    specialize (Ho i (or_introl eq_refl)). unfold outside in Ho. rewrite (open_span _ _ _ Hi) in Ho. cbn in Ho.
    apply (f_equal (@length N)) in E. rewrite !app_length in E. lia.
Qed.

(** A document splits between lines. *)
Lemma document_split p w l : clear_document_at unq p w l -> forall pre post, w = pre ++ post -> ends_line pre ->
  (forall i, In i l -> outside (p + length pre) i) ->
  exists l1 l2, l = l1 ++ l2 /\ clear_document_at unq (p + length pre) post l2 /\
    forall post2 l3, clear_document_at unq (p + length pre) post2 l3 ->
      clear_document_at unq p (pre ++ post2) (l1 ++ l3) /\
      forall g, (forall q, q < p + length pre -> g q = q) ->
        clear_document_at unq p (pre ++ post2) (map (move_instruction g) l1 ++ l3).
Proof.
  assert (Triv : forall p w l pre post, clear_document_at unq p w l -> w = pre ++ post -> pre = [] ->
    exists l1 l2, l = l1 ++ l2 /\ clear_document_at unq (p + length pre) post l2 /\
    forall post2 l3, clear_document_at unq (p + length pre) post2 l3 ->
      clear_document_at unq p (pre ++ post2) (l1 ++ l3) /\
      forall g, (forall q, q < p + length pre -> g q = q) ->
        clear_document_at unq p (pre ++ post2) (map (move_instruction g) l1 ++ l3)).
  { clear. intros p w l pre post H E ->. cbn [app] in E. subst post. exists [], l. cbn [app length map].
    rewrite Nat.add_0_r. auto. }
  induction 1 as [p w l H|p w n w2 l l' H Hn Hd IH]; intros pre post E He Ho.
  - destruct pre as [|x pre'] eqn:Epre; [apply (Triv p w l); [constructor; exact H|exact E|reflexivity]|]. exfalso.
    rewrite <- Epre in *. apply (line_outside p w l pre post H E); [congruence|exact He|exact Ho].
  - destruct pre as [|x pre'] eqn:Epre; [eapply Triv; [apply clear_more; eassumption|exact E|reflexivity]|].
    rewrite <- Epre in *. assert (Hne : pre <> []) by congruence. clear Epre x pre'. pose proof E as E0.
    apply app_eq_app in E. destruct E as (m & [[E1 E2]|[E1 E2]]).
    + (* inside the line *)
      exfalso. apply (line_outside p w l pre m H E1 Hne He). intros i Hi. apply Ho. apply in_or_app. auto.
    + (* after it *)
      assert (Hm : m = [] \/ exists t c, m = t ++ [c] /\ is_newline_byte c = true).
      { destruct He as [He|(t & c & He & Hc)]; [congruence|]. destruct m as [|y m _] using rev_ind; [auto|right].
        rewrite E1, app_assoc in He. apply app_inj_tail in He. destruct He as [_ ->]. exists m, c. auto. }
      apply app_eq_app in E2. destruct E2 as (m2 & [[E2 E3]|[E2 E3]]).
      * (* in the newline *)
        destruct m as [|y m].
        { exfalso. rewrite app_nil_r in E1. apply (line_outside p w l pre [] H); [rewrite app_nil_r; congruence|exact Hne|exact He|].
          intros i Hi. apply Ho. apply in_or_app. auto. }
        destruct m2 as [|z m2].
        { (* exactly after the newline *)
          rewrite app_nil_r in E2. cbn [app] in E3. subst post.
          exists l, l'. split; [reflexivity|]. rewrite E1, app_length, <- E2, Nat.add_assoc. split; [exact Hd|].
          intros post2 l3 K. rewrite <- app_assoc. split; [apply clear_more; assumption|]. intros g Hg.
          pose proof (newline_len n Hn) as Hlen.
          apply clear_more; [|exact Hn|exact K]. rewrite <- (Hg p) by lia. apply line_move; [|exact H].
          intros q Hq1 Hq2. rewrite !Hg by lia. lia. }
        (* between CR and LF *)
        assert (y = CR /\ m = [] /\ z :: m2 = [LF]) as (-> & -> & Ez).
        { destruct Hn; cbn [app] in E2; [destruct m; discriminate| |destruct m; discriminate].
          injection E2 as <- E2. destruct m as [|a m]; [cbn [app] in E2; injection E2 as <- <-; auto|]. destruct m; discriminate. }
        rewrite Ez in *. cbn [app] in E2. subst n.
        exists l, l'. split; [reflexivity|]. rewrite E1, app_length, Nat.add_assoc. cbn [length] in *.
        split.
        { subst post. change l' with ([] ++ l'). change ([LF] ++ w2) with ([] ++ [LF] ++ w2). apply clear_more; [repeat constructor|constructor|].
          cbn [length]. replace (p + length w + 1 + 0 + 1) with (p + length w + 2) by lia. exact Hd. }
        intros post2 l3 K. rewrite <- app_assoc. split; [apply clear_more; [exact H|constructor|exact K]|]. intros g Hg.
        apply clear_more; [|constructor|exact K]. rewrite <- (Hg p) by lia. apply line_move; [|exact H].
        intros q Hq1 Hq2. rewrite !Hg by lia. lia.
      * (* after the newline *)
        subst m. assert (Ep : p + length pre = p + length w + length n + length m2) by (rewrite E1, !app_length; lia).
        assert (Hm2 : ends_line m2).
        { destruct m2 as [|y m2 _] using rev_ind; [left; reflexivity|right]. destruct Hm as [Hm|(t & c & Hm & Hc)].
          - destruct n; destruct m2; discriminate.
          - rewrite app_assoc in Hm. apply app_inj_tail in Hm. destruct Hm as [_ ->]. exists m2, c. auto. }
        destruct (IH m2 post) as (l1 & l2 & -> & K1 & K2); [exact E3|exact Hm2|intros i Hi; rewrite <- Ep; apply Ho; apply in_or_app; auto|].
        rewrite <- Ep in K1, K2. exists (l ++ l1), l2. split; [apply app_assoc|]. split; [exact K1|].
        intros post2 l3 K. rewrite E1, <- !app_assoc. destruct (K2 post2 l3 K) as [K3 K4].
        split; [apply clear_more; assumption|]. intros g Hg. rewrite <- E1 in Hg. rewrite map_app, <- app_assoc.
        pose proof (newline_len n Hn) as Hlen.
        apply clear_more; [|exact Hn|].
        -- rewrite <- (Hg p) by lia. apply line_move; [|exact H]. intros q Hq1 Hq2. rewrite !Hg by lia. lia.
        -- apply K4. exact Hg.
Qed.

(** Lines before a document *)
Lemma document_skipped k extra : skipped_lines k extra -> forall p post l,
  clear_document_at unq (p + length extra) post l -> clear_document_at unq p (extra ++ post) l.
Proof.
  induction 1 as [|k b n w Hb Hn Hw IH|k b t n w Hb Ht Hn Hw IH]; intros p post l H.
  - cbn [app length] in *. rewrite Nat.add_0_r in H. exact H.
  - rewrite <- !app_assoc. change l with ([] ++ l). apply clear_more; [constructor; exact Hb|exact Hn|].
    apply IH. rewrite !app_length, !Nat.add_assoc in H. exact H.
  - rewrite <- !app_assoc. rewrite (app_assoc b). change l with ([] ++ l). apply clear_more; [constructor; assumption|exact Hn|].
    apply IH. rewrite !app_length, !Nat.add_assoc in *. exact H.
Qed.

(** ... may be taken off. *)
Lemma head_unique (P : N -> Prop) b c s b0 c0 s0 : Forall P b -> Forall P b0 -> ~ P c -> ~ P c0 ->
  b ++ c :: s = b0 ++ c0 :: s0 -> b = b0 /\ c = c0 /\ s = s0.
Proof.
  intros H. revert b0. induction H as [|x b Hx Hb IH]; intros b0 H0 Hc Hc0 E.
  - destruct H0 as [|y b0 Hy Hb0]; cbn [app] in E; injection E; intros; subst; [auto|contradiction].
  - destruct H0 as [|y b0 Hy Hb0]; cbn [app] in E; injection E as -> E; [contradiction|].
    destruct (IH b0 Hb0 Hc Hc0 E) as (-> & -> & ->). auto.
Qed.

Lemma newline_cases n w n0 w0 : newline n -> newline n0 -> n ++ w = n0 ++ w0 ->
  (n = n0 /\ w = w0) \/ (n = [CR] /\ n0 = [CR; LF] /\ w = LF :: w0) \/ (n = [CR; LF] /\ n0 = [CR] /\ w0 = LF :: w).
Proof.
  intros H H0 E. destruct H; destruct H0; cbn [app] in E; try discriminate; injection E; intros; subst; auto 6.
Qed.

Lemma newline_hd n : newline n -> exists c t, n = c :: t /\ is_newline_byte c = true.
Proof. intros H. destruct H; eauto. Qed.

(** A line is blank, a comment, or begins with blanks and a letter. *)
Lemma line_shape p w l : clear_line_at unq p w l ->
  (blanks w /\ l = []) \/ (exists b t, w = b ++ t /\ blanks b /\ comment_text t /\ l = []) \/
  (exists b c t, w = b ++ c :: t /\ blanks b /\ is_alpha c = true).
Proof.
  intros H. destruct H as [p b Hb|p b t Hb Ht|p b w b2 i Hb Hi Hb2|p b w i Hb Hi].
  - left. auto.
  - right. left. exists b, t. auto.
  - right. right. pose proof (closed_head_letter _ _ _ _ b2 Hi) as K. destruct (w ++ b2) as [|c t]; [contradiction|]. exists b, c, t. auto.
  - right. right. pose proof (open_head_letter _ _ _ _ [] Hi) as K. rewrite app_nil_r in K. destruct w as [|c t]; [contradiction|]. exists b, c, t. auto.
Qed.

Lemma document_drop p w l x n rest : clear_document_at unq p w l -> w = x ++ n ++ rest -> newline n ->
  blanks x \/ (exists b t, x = b ++ t /\ blanks b /\ comment_text t) ->
  clear_document_at unq (p + length x + length n) rest l.
Proof.
  assert (L : forall p w l s x n rest, clear_line_at unq p w l -> w ++ s = x ++ n ++ rest -> newline n -> at_line_end s ->
    blanks x \/ (exists b t, x = b ++ t /\ blanks b /\ comment_text t) -> w = x /\ l = [] /\ s = n ++ rest).
  { clear. intros p w l s x n rest H E Hn Hs Hx. destruct (newline_hd n Hn) as (c & n' & -> & Hc). cbn [app] in E.
    assert (Hcb : is_blank c <> true).
    { clear - Hc. intros K. unfold is_blank in K. apply orb_true_iff in K. rewrite !N.eqb_eq in K. destruct K; subst; discriminate. }
    assert (Hend : s = [] \/ exists d s', s = d :: s' /\ is_newline_byte d = true).
    { destruct Hs as [Hs|Hs]; [auto|]. destruct s as [|d s']; [auto|]. cbn in Hs. eauto. }
    apply line_shape in H. destruct H as [[Hb ->]|[(b & t & -> & Hb & Ht & ->)|(b & a & t & -> & Hb & Ha)]].
    - destruct Hx as [Hx|(b0 & t0 & -> & Hb0 & (u0 & -> & _))].
      + destruct Hend as [-> |(d & s' & -> & Hd)].
        { exfalso. rewrite app_nil_r in E. subst w. apply Forall_app in Hb. destruct Hb as [_ Hb]. inversion Hb. congruence. }
        apply head_unique with (P := fun c => is_blank c = true) in E; [|exact Hb|exact Hx| |exact Hcb].
        * destruct E as (-> & -> & ->). auto.
        * clear - Hd. intros K. unfold is_blank in K. apply orb_true_iff in K. rewrite !N.eqb_eq in K. destruct K; subst; discriminate.
      + exfalso. rewrite <- app_assoc in E. cbn [app] in E. destruct Hend as [-> |(d & s' & -> & Hd)].
        { rewrite app_nil_r in E. subst w. apply Forall_app in Hb. destruct Hb as [_ Hb]. inversion Hb. discriminate. }
        apply head_unique with (P := fun c => is_blank c = true) in E; [|exact Hb|exact Hb0| |discriminate].
        * destruct E as (_ & -> & _). discriminate.
        * clear - Hd. intros K. unfold is_blank in K. apply orb_true_iff in K. rewrite !N.eqb_eq in K. destruct K; subst; discriminate.
    - destruct Ht as (u & -> & Hu & _). rewrite <- app_assoc in E. cbn [app] in E.
      destruct Hx as [Hx|(b0 & t0 & -> & Hb0 & (u0 & -> & Hu0 & _))].
      + exfalso. apply head_unique with (P := fun c => is_blank c = true) in E; [|exact Hb|exact Hx|discriminate|exact Hcb].
        destruct E as (_ & <- & _). discriminate.
      + rewrite <- app_assoc in E. cbn [app] in E.
        apply head_unique with (P := fun c => is_blank c = true) in E; [|exact Hb|exact Hb0|discriminate|discriminate].
        destruct E as (-> & _ & E). destruct Hend as [-> |(d & s' & -> & Hd)].
        { exfalso. rewrite app_nil_r in E. subst u. apply Forall_app in Hu. destruct Hu as [_ Hu]. inversion Hu. congruence. }
        apply head_unique with (P := fun c => is_newline_byte c = false) in E; [|exact Hu|exact Hu0|congruence|congruence].
        destruct E as (-> & -> & ->). auto.
    - exfalso. rewrite <- app_assoc in E. cbn [app] in E.
      assert (Hab : is_blank a <> true) by (apply letter_not_blank in Ha; congruence).
      destruct Hx as [Hx|(b0 & t0 & -> & Hb0 & (u0 & -> & _))].
      + apply head_unique with (P := fun c => is_blank c = true) in E; [|exact Hb|exact Hx|exact Hab|exact Hcb].
        destruct E as (_ & -> & _). clear - Ha Hc. apply Forward3.alpha_solid in Ha. destruct Ha as (_ & Ha & _). congruence.
      + rewrite <- app_assoc in E. cbn [app] in E.
        apply head_unique with (P := fun c => is_blank c = true) in E; [|exact Hb|exact Hb0|exact Hab|discriminate].
        destruct E as (_ & -> & _). discriminate. }
  intros H E Hn Hx. destruct H as [p w l H|p w n0 w2 l l' H Hn0 Hd].
  - exfalso. destruct (L p w l [] x n rest H) as (_ & _ & K); [rewrite app_nil_r; exact E|exact Hn|left; reflexivity|exact Hx|].
    destruct (newline_hd n Hn) as (c & t & -> & _). discriminate.
  - destruct (L p w l (n0 ++ w2) x n rest H) as (-> & -> & K); [exact E|exact Hn|right; apply newline_head; exact Hn0|exact Hx|].
    cbn [app]. apply newline_cases in K; [|exact Hn0|exact Hn]. destruct K as [[-> ->]|[(-> & -> & ->)|(-> & -> & ->)]].
    + exact Hd.
    + apply (document_after_lf unq) in Hd. cbn [length] in *. replace (p + length x + 2) with (p + length x + 1 + 1) by lia. exact Hd.
    + cbn [length] in *. change l' with ([] ++ l'). change (LF :: w2) with ([] ++ [LF] ++ w2). apply clear_more; [repeat constructor|constructor|].
      cbn [length]. replace (p + length x + 1 + 0 + 1) with (p + length x + 2) by lia. exact Hd.
Qed.

Lemma document_unskipped k extra : skipped_lines k extra -> forall p post l,
  clear_document_at unq p (extra ++ post) l -> clear_document_at unq (p + length extra) post l.
Proof.
  induction 1 as [|k b n w Hb Hn Hw IH|k b t n w Hb Ht Hn Hw IH]; intros p post l H.
  - cbn [app length] in *. rewrite Nat.add_0_r. exact H.
  - rewrite <- !app_assoc in H. rewrite !app_length, !Nat.add_assoc. apply IH.
    eapply document_drop; [exact H|reflexivity|exact Hn|left; exact Hb].
  - rewrite <- !app_assoc in H. rewrite app_assoc in H. rewrite !app_length, !Nat.add_assoc. apply IH.
    pose proof (document_drop p _ l (b ++ t) n (w ++ post) H eq_refl Hn) as K. rewrite app_length, !Nat.add_assoc in K.
    apply K. right. eauto.
Qed.

End Edit.
