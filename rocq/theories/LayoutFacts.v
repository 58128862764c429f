(** Layout of the documents of SpecSyntax.v. *)

From Coq Require Import String.
From Verif Require Import Bytes BytesFacts Ast SpecImage SpecSplice SpecSyntax SpecParts PartsFacts SpecLayout.
Local Open Scope nat_scope.

(** ** Newlines *)

Lemma blank_no_newline c : is_blank c = true -> is_newline_byte c = false.
Proof.
  unfold is_blank, is_newline_byte. intros H. apply orb_true_iff in H. rewrite !N.eqb_eq in H.
  destruct H; subst; reflexivity.
Qed.

Lemma blanks_no_newline b : blanks b -> no_newline b.
Proof. apply Forall_impl. intros c. apply blank_no_newline. Qed.

Lemma comment_no_newline t : comment_text t -> no_newline t.
Proof. intros (u & -> & H & _). constructor; [reflexivity|exact H]. Qed.

Lemma newline_head n : newline n -> exists c t, n = c :: t /\ is_newline_byte c = true.
Proof. destruct 1; eexists; eexists; (split; [reflexivity|reflexivity]). Qed.

Lemma skipped_app j k a b : skipped_lines j a -> skipped_lines k b -> skipped_lines (j + k) (a ++ b).
Proof.
  induction 1 as [|j b0 n w Hb Hn H IH|j b0 t n w Hb Ht Hn H IH]; intros Hk; [exact Hk| |].
  - rewrite <- !app_assoc. apply skipped_empty; auto.
  - rewrite <- !app_assoc. apply (skipped_comment (j + k)); auto.
Qed.

(** ** Tiling *)

Section Unq.
Variable unq : bytes -> option bytes.

Lemma last_line_of p w : line_at unq p w [] -> last_line w.
Proof. inversion 1; subst; [left; assumption|right; eauto]. Qed.

Lemma skip_one k b n w : last_line b -> newline n -> skipped_lines k w -> exists j, skipped_lines j (b ++ n ++ w).
Proof.
  intros [H|(b0 & t & -> & Hb & Ht)] Hn Hw.
  - exists k. constructor; assumption.
  - exists (S k). rewrite <- app_assoc. constructor; assumption.
Qed.

(** What a document is, seen from the start of a line. *)
Lemma document_tiles p w l : document_at unq p w l ->
  match l with
  | [] => only_filler w
  | _ => exists f rest, w = f ++ rest /\ filler_before f /\ tiles (p + length f) rest (map instruction_span l)
  end.
Proof.
  induction 1 as [p w l Hl|p w n w2 l l2 Hl Hn Hd IH].
  - destruct Hl as [p b Hb|p b t Hb Ht|p b w b2 i Hb Hi Hb2].
    + exists 0, [], b. split; [reflexivity|]. split; [constructor|left; exact Hb].
    + exists 0, [], (b ++ t). split; [reflexivity|]. split; [constructor|right; eauto].
    + destruct (instruction_valid unq _ _ _ Hi) as (_ & Hn & E).
      exists b, (w ++ b2). split; [reflexivity|]. split; [exists 0, [], b; repeat split; [constructor|exact Hb]|].
      cbn [map]. rewrite E. constructor; [exact Hn|left; exact Hb2].
  - assert (Hl' : l = [] \/ exists i, l = [i]) by (destruct Hl; eauto). destruct Hl' as [->|(i & ->)].
    + apply last_line_of in Hl. cbn [app]. destruct l2 as [|i l2].
      * destruct IH as (k & s & r & -> & Hs & Hr). destruct (skip_one _ _ _ _ Hl Hn Hs) as (j & Hj).
        exists j, (w ++ n ++ s), r. rewrite <- !app_assoc. auto.
      * destruct IH as (f & rest & -> & (k & s & b & -> & Hs & Hb) & Ht).
        destruct (skip_one _ _ _ _ Hl Hn Hs) as (j & Hj).
        exists (w ++ n ++ s ++ b), rest. rewrite <- !app_assoc. split; [reflexivity|].
        split; [exists j, (w ++ n ++ s), b; rewrite <- !app_assoc; auto|].
        replace (p + length (w ++ n ++ s ++ b)) with (p + length w + length n + length (s ++ b))
          by (rewrite !app_length; lia). exact Ht.
    + inversion Hl as [| |p0 b v b2 i0 Hb Hi Hb2 E1 E2 E3]; subst. cbn [app].
      destruct (instruction_valid unq _ _ _ Hi) as (_ & Hv & E).
      exists b, (v ++ (b2 ++ n ++ w2)). rewrite <- !app_assoc. split; [reflexivity|].
      split; [exists 0, [], b; repeat split; [constructor|exact Hb]|]. cbn [map]. rewrite E.
      destruct l2 as [|i2 l2].
      * constructor; [exact Hv|]. destruct IH as (k & s & r & -> & Hs & Hr). right. exists b2, n, k, s, r. auto.
      * destruct IH as (f & rest & -> & Hf & Ht).
        replace (b2 ++ n ++ f ++ rest) with ((b2 ++ n ++ f) ++ rest) by (rewrite <- !app_assoc; reflexivity).
        constructor; [exact Hv|exists b2, n, f; auto|].
        replace (p + length b + length v + length (b2 ++ n ++ f)) with
          (p + length (b ++ v ++ b2) + length n + length f) by (rewrite !app_length; lia). exact Ht.
Qed.

Lemma document_tiled input l : document unq input l -> tiled input (map instruction_span l).
Proof. intros H. apply document_tiles in H. destruct l; exact H. Qed.

End Unq.

Lemma tiles_in_order p w sps : tiles p w sps -> in_order p (p + length w) sps.
Proof.
  induction 1 as [p w f Hw Hf|p w f rest sps Hw Hf Ht IH].
  - cbn. rewrite app_length. destruct w; [congruence|]. cbn [length]. lia.
  - cbn. rewrite !app_length. assert (0 < length w) by (destruct w; [congruence|cbn; lia]).
    repeat split; try lia. eapply in_order_weaken; [exact IH|lia|lia].
Qed.

Lemma tiled_in_order input sps : tiled input sps -> in_order 0 (length input) sps.
Proof.
  destruct sps as [|s sps]; [intros _; exact I|]. intros (f & rest & -> & _ & H).
  apply tiles_in_order in H. rewrite app_length. eapply in_order_weaken; [exact H|lia|lia].
Qed.

(** Two neighbours: the text between them *)
Lemma tiles_between p w sps : tiles p w sps -> forall l1 a b l2, sps = l1 ++ a :: b :: l2 ->
  forall pre post, length pre = p -> filler_between (text_at (pre ++ w ++ post) (Span (s_end a) (s_start b))).
Proof.
  induction 1 as [p w f Hw Hf|p w f rest sps Hw Hf Ht IH]; intros l1 a b l2 E pre post Hp.
  - destruct l1 as [|? [|]]; discriminate.
  - destruct l1 as [|s l1]; cbn [app] in E; injection E as E1 E2.
    + subst a. assert (Es : s_start b = p + length w + length f).
      { destruct Ht; injection E2 as <- _; reflexivity. }
      unfold text_at; cbn [s_start s_end at_]. rewrite Es.
      replace (pre ++ (w ++ f ++ rest) ++ post) with ((pre ++ w) ++ f ++ rest ++ post) by (rewrite <- !app_assoc; reflexivity).
      replace (p + length w) with (length (pre ++ w)) by (rewrite app_length; lia). rewrite slice_app. exact Hf.
    + replace (pre ++ (w ++ f ++ rest) ++ post) with ((pre ++ w ++ f) ++ rest ++ post) by (rewrite <- !app_assoc; reflexivity).
      eapply IH; [exact E2|]. rewrite !app_length. lia.
Qed.

Lemma tiled_between input l1 a b l2 : tiled input (l1 ++ a :: b :: l2) ->
  filler_between (text_at input (Span (s_end a) (s_start b))).
Proof.
  unfold tiled. destruct (l1 ++ a :: b :: l2) as [|s l] eqn:E; [destruct l1; discriminate|].
  intros (f & rest & -> & _ & H). rewrite <- E in H.
  pose proof (tiles_between _ _ _ H l1 a b l2 eq_refl f [] eq_refl) as K. rewrite app_nil_r in K. exact K.
Qed.

(** ** The logical line *)

Lemma shell_logical p w l : shell_at p w l -> logical_line w (display_components l).
Proof.
  induction 1 as [p w Hw Hc|p w c w2 l Hw Hn Hc H IH|p b t Hb Ht|p b t n Hb Ht Hn|p b t n w l Hb Ht Hn H IH];
    cbn [display_components text_part comment_part ss_content].
  - rewrite app_nil_r. constructor; [apply Hw|exact Hc].
  - constructor; [apply Hw|exact Hn|exact Hc|exact IH].
  - constructor; assumption.
  - replace (b ++ t ++ n) with (b ++ t ++ n ++ []) by (rewrite app_nil_r; reflexivity).
    apply logical_comment_line; auto. apply logical_text; [constructor|]. intros (b0 & t0 & E & _). destruct b0; discriminate.
  - constructor; assumption.
Qed.

Lemma no_newline_app a b : no_newline a -> no_newline b -> no_newline (a ++ b).
Proof. intros. apply Forall_app. auto. Qed.

Lemma logical_no_newline w v : logical_line w v -> no_newline v.
Proof. induction 1; auto using no_newline_app; constructor. Qed.

Lemma logical_head w v : logical_line w v -> match w with c :: _ => is_newline_byte c = false | [] => True end.
Proof.
  destruct 1 as [w Hw _|w c w2 v Hw _ (b & n & -> & _) _|b t Hb (u & -> & _)|b t n w v Hb (u & -> & _)].
  - destruct Hw; auto.
  - destruct Hw; cbn; auto.
  - destruct Hb; cbn; auto using blank_no_newline.
  - destruct Hb; cbn; auto using blank_no_newline.
Qed.

(** The first line of a text is unique. *)
Lemma first_line a n r : no_newline a -> newline n ->
  match r with c :: _ => is_newline_byte c = false | [] => True end ->
  forall a' n' r', no_newline a' -> newline n' ->
  match r' with c :: _ => is_newline_byte c = false | [] => True end ->
  a ++ n ++ r = a' ++ n' ++ r' -> a = a' /\ n = n' /\ r = r'.
Proof.
  intros Ha Hn Hr. induction Ha as [|c a Hc Ha IH]; intros a' n' r' Ha' Hn' Hr' E; cbn [app] in E.
  - destruct Ha' as [|c' a' Hc' Ha'].
    + cbn [app] in E. destruct Hn, Hn'; cbn [app] in E; try discriminate E; injection E as E; subst; auto;
        cbn in *; discriminate.
    + exfalso. destruct (newline_head n Hn) as (x & t & -> & Hx). cbn [app] in E. injection E as E1 E2. congruence.
  - destruct Ha' as [|c' a' Hc' Ha'].
    + exfalso. destruct (newline_head n' Hn') as (x & t & -> & Hx). cbn [app] in E. injection E as E1 E2. congruence.
    + cbn [app] in E. injection E as E1 E2. subst c'. destruct (IH _ _ _ Ha' Hn' Hr' E2) as (-> & -> & ->). auto.
Qed.

Lemma no_newline_in a n r w : no_newline w -> newline n -> w = a ++ n ++ r -> False.
Proof.
  intros Hw Hn ->. apply Forall_app in Hw. destruct Hw as [_ Hw]. destruct (newline_head n Hn) as (x & t & -> & Hx).
  inversion Hw. congruence.
Qed.

Lemma continued_comment w b : ~ comment_like w -> ~ comment_like (w ++ BSLASH :: b).
Proof.
  intros Hw (b0 & t & E & Hb0). apply Hw. clear Hw. revert w E. induction Hb0 as [|c b0 Hc Hb0 IH]; intros w E.
  - destruct w as [|x w]; [discriminate|]. cbn [app] in E. injection E as -> E. exists [], w. split; [reflexivity|constructor].
  - destruct w as [|x w]; [injection E as <- _; discriminate|]. cbn [app] in E. injection E as -> E.
    destruct (IH w E) as (b1 & t1 & -> & Hb1). exists (c :: b1), t1. split; [reflexivity|]. constructor; assumption.
Qed.

Lemma last_backslash b : blanks b -> forall b' w w', blanks b' -> w ++ BSLASH :: b = w' ++ BSLASH :: b' -> w = w'.
Proof.
  intros Hb b' w w' Hb' E. apply (f_equal (@rev N)) in E. rewrite !rev_app_distr in E. cbn [rev] in E.
  rewrite <- !app_assoc in E. cbn [app] in E. apply Forall_rev in Hb, Hb'.
  assert (K : forall u u' v v' : bytes, Forall (fun c => is_blank c = true) u -> Forall (fun c => is_blank c = true) u' ->
    u ++ BSLASH :: v = u' ++ BSLASH :: v' -> v = v').
  { clear. intros u u' v v' H. revert u'. induction H as [|c u Hc Hu IH]; intros u' Hu' E; destruct Hu' as [|c' u' Hc' Hu'].
    - injection E as ->. reflexivity.
    - injection E as <- _. discriminate.
    - injection E as -> _. discriminate.
    - injection E as _ E. eapply IH; eassumption. }
  apply K in E; auto. rewrite <- (rev_involutive w), E, rev_involutive. reflexivity.
Qed.

Lemma logical_line_fun w v v' : logical_line w v -> logical_line w v' -> v = v'.
Proof.
  intros H. revert v'. induction H as [w Hw Hc|w c w2 v Hw Hn Hc H IH|b t Hb Ht|b t n w v Hb Ht Hn H IH]; intros v' H'.
  - inversion H' as [w0 _ _|w0 c0 w2 v0 _ _ (b0 & n0 & -> & _ & Hn0) _ E|b t Hb (u & -> & _) E|b t n0 w0 v0 Hb _ Hn0 _ E]; subst; [reflexivity| | |].
    + exfalso. eapply (no_newline_in (w0 ++ BSLASH :: b0) n0 w2); [exact Hw|exact Hn0|]. rewrite <- !app_assoc. cbn [app]. rewrite <- app_assoc. reflexivity.
    + exfalso. apply Hc. exists b, u. auto.
    + exfalso. eapply (no_newline_in (b ++ t) n0 w0); [exact Hw|exact Hn0|]. rewrite <- !app_assoc. reflexivity.
  - destruct Hc as (b & n & -> & Hb & Hn0). pose proof (logical_head _ _ H) as Hh.
    assert (Ha : no_newline (w ++ BSLASH :: b)) by (apply no_newline_app; [exact Hw|constructor; [reflexivity|apply blanks_no_newline; exact Hb]]).
    assert (Et : w ++ (BSLASH :: b ++ n) ++ w2 = (w ++ BSLASH :: b) ++ n ++ w2) by (rewrite <- !app_assoc; cbn [app]; rewrite <- app_assoc; reflexivity).
    rewrite Et in H'. inversion H' as [w0 Hw0 _ E|w0 c0 w3 v0 Hw0 Hn1 (b0 & n0 & -> & Hb0 & Hn2) H0 E E2|b0 t0 Hb0 Ht0 E|b0 t0 n0 w0 v0 Hb0 Ht0 Hn1 H0 E]; subst.
    + exfalso. eapply no_newline_in; [exact Hw0|exact Hn0|reflexivity].
    + pose proof (logical_head _ _ H0) as Hh0.
      assert (Et0 : w0 ++ (BSLASH :: b0 ++ n0) ++ w3 = (w0 ++ BSLASH :: b0) ++ n0 ++ w3) by (rewrite <- !app_assoc; cbn [app]; rewrite <- app_assoc; reflexivity).
      assert (E' := eq_trans (eq_sym Et0) E). clear E; rename E' into E.
      destruct (first_line (w0 ++ BSLASH :: b0) n0 w3) with (a' := w ++ BSLASH :: b) (n' := n) (r' := w2) as (E1 & -> & ->); auto.
      { apply no_newline_app; [exact Hw0|constructor; [reflexivity|apply blanks_no_newline; exact Hb0]]. }
      apply last_backslash in E1; auto. subst w0. f_equal. apply IH. exact H0.
    + exfalso. assert (K : no_newline (b0 ++ t0)) by (apply no_newline_app; [apply blanks_no_newline|apply comment_no_newline]; assumption).
      eapply no_newline_in; [exact K|exact Hn0|exact E].
    + exfalso. pose proof (logical_head _ _ H0) as Hh0. rewrite (app_assoc b0) in E.
      destruct (first_line (b0 ++ t0) n0 w0) with (a' := w ++ BSLASH :: b) (n' := n) (r' := w2) as (E1 & _); auto.
      { apply no_newline_app; [apply blanks_no_newline|apply comment_no_newline]; assumption. }
      apply (continued_comment w b Hn). destruct Ht0 as (u & -> & _). exists b0, u. split; [symmetry; exact E1|exact Hb0].
  - assert (K : no_newline (b ++ t)) by (apply no_newline_app; [apply blanks_no_newline|apply comment_no_newline]; assumption).
    inversion H' as [w0 _ Hc E|w0 c0 w2 v0 _ _ (b0 & n0 & -> & _ & Hn0) _ E|b0 t0 Hb0 _ E|b0 t0 n0 w0 v0 Hb0 _ Hn0 _ E]; subst; [| |reflexivity|].
    + exfalso. apply Hc. destruct Ht as (u & -> & _). exists b, u. auto.
    + exfalso. eapply (no_newline_in (w0 ++ BSLASH :: b0) n0 w2); [exact K|exact Hn0|]. rewrite <- !app_assoc. reflexivity.
    + exfalso. eapply (no_newline_in (b0 ++ t0) n0 w0); [exact K|exact Hn0|]. rewrite <- !app_assoc. reflexivity.
  - assert (K : no_newline (b ++ t)) by (apply no_newline_app; [apply blanks_no_newline|apply comment_no_newline]; assumption).
    pose proof (logical_head _ _ H) as Hh.
    rewrite (app_assoc b) in H'. inversion H' as [w0 Hw0 _ E|w0 c0 w3 v0 Hw0 Hn1 (b0 & n0 & -> & Hb0 & Hn2) H0 E E2|b0 t0 Hb0 Ht0 E|b0 t0 n0 w0 v0 Hb0 Ht0 Hn1 H0 E]; subst.
    + exfalso. eapply no_newline_in; [exact Hw0|exact Hn|reflexivity].
    + exfalso. pose proof (logical_head _ _ H0) as Hh0.
      assert (Et0 : w0 ++ (BSLASH :: b0 ++ n0) ++ w3 = (w0 ++ BSLASH :: b0) ++ n0 ++ w3) by (rewrite <- !app_assoc; cbn [app]; rewrite <- app_assoc; reflexivity).
      assert (E' := eq_trans (eq_sym Et0) E). clear E; rename E' into E.
      destruct (first_line (w0 ++ BSLASH :: b0) n0 w3) with (a' := b ++ t) (n' := n) (r' := w) as (E1 & _); auto.
      { apply no_newline_app; [exact Hw0|constructor; [reflexivity|apply blanks_no_newline; exact Hb0]]. }
      apply (continued_comment w0 b0 Hn1). destruct Ht as (u & -> & _). exists b, u. split; [exact E1|exact Hb].
    + exfalso. assert (K2 : no_newline (b0 ++ t0)) by (apply no_newline_app; [apply blanks_no_newline|apply comment_no_newline]; assumption).
      eapply no_newline_in; [exact K2|exact Hn|exact E].
    + pose proof (logical_head _ _ H0) as Hh0. rewrite (app_assoc b0) in E.
      destruct (first_line (b0 ++ t0) n0 w0) with (a' := b ++ t) (n' := n) (r' := w) as (_ & _ & ->); auto.
      apply no_newline_app; [apply blanks_no_newline|apply comment_no_newline]; assumption.
Qed.

(** ** Components *)

Lemma comment_nonempty t : comment_text t -> t <> [].
Proof. intros (u & -> & _). discriminate. Qed.

Lemma shell_laid_out p w l : shell_at p w l -> laid_out p w (map component_span l).
Proof.
  assert (B : blanks []) by constructor.
  induction 1 as [p w Hw Hc|p w c w2 l Hw Hn Hc H IH|p b t Hb Ht|p b t n Hb Ht Hn|p b t n w l Hb Ht Hn H IH]; cbn [map component_span text_part comment_part ss_span sc_span].
  - pose proof (laid_out_last p [] w [] B (proj1 Hw) (or_introl eq_refl)) as K.
    cbn [app length] in K. rewrite app_nil_r, Nat.add_0_r in K. exact K.
  - pose proof (laid_out_more p [] w c w2 (map component_span l) B (proj1 Hw) (or_introl Hc)) as K.
    cbn [app length] in K. rewrite Nat.add_0_r in K. auto.
  - pose proof (laid_out_last p b t [] Hb (comment_nonempty _ Ht) (or_introl eq_refl)) as K. rewrite app_nil_r in K. exact K.
  - apply laid_out_last; auto using comment_nonempty.
  - apply laid_out_more; auto using comment_nonempty.
Qed.

(** ** Joined lines *)

Lemma joined_plain q a w : no_newline a -> joined q w -> joined q (a ++ w).
Proof. induction 1; cbn [app]; auto. intros. constructor; auto. Qed.

Lemma joined_plain_end q a : no_newline a -> joined q a.
Proof. intros H. rewrite <- (app_nil_r a). apply joined_plain; [exact H|constructor]. Qed.

Lemma joined_gap q k g w : gap k g -> joined q w -> joined q (g ++ w).
Proof.
  induction 1 as [|k c g Hc Hg IH|j k c l g Hc Hl Hg IH]; intros Hw; [exact Hw| |].
  - cbn [app]. constructor; [apply blank_no_newline; exact Hc|auto].
  - rewrite <- !app_assoc. econstructor; eauto.
Qed.

Lemma class_no_newline (P : N -> bool) w : (forall c, P c = true -> is_newline_byte c = false) ->
  Forall (fun c => P c = true) w -> no_newline w.
Proof. intros HP. apply Forall_impl. exact HP. Qed.

Ltac no_newline_class := intros c Hc; destruct (is_newline_byte c) eqn:E; [|reflexivity]; exfalso;
  unfold is_newline_byte in E; apply orb_true_iff in E; rewrite !N.eqb_eq in E; destruct E; subst c; discriminate Hc.

Lemma letters_no_newline w : letters w -> no_newline w.
Proof. intros [_ H]. revert H. apply class_no_newline. no_newline_class. Qed.
Lemma image_no_newline w : image_text w -> no_newline w.
Proof. intros [_ H]. revert H. apply class_no_newline. no_newline_class. Qed.
Lemma alias_no_newline w : alias_text w -> no_newline w.
Proof. intros [_ H]. revert H. apply class_no_newline. no_newline_class. Qed.
Lemma env_name_no_newline w : env_name_text w -> no_newline w.
Proof. intros [_ H]. revert H. apply class_no_newline. no_newline_class. Qed.
Lemma arg_name_no_newline w : arg_name_text w -> no_newline w.
Proof. intros H. apply arg_name_word in H. revert H. apply env_name_no_newline. Qed.
Lemma word_no_newline w : word w -> no_newline w.
Proof. intros (_ & H & _). eapply Forall_impl; [|exact H]. cbn. intuition. Qed.
Lemma label_word_no_newline w : label_word w -> no_newline w.
Proof. intros (_ & H & _). eapply Forall_impl; [|exact H]. cbn. intuition. Qed.
Lemma keyword_no_newline k w : no_newline (bs k) -> keyword k w -> no_newline w.
Proof.
  unfold keyword. intros Hk E. rewrite <- E in Hk. clear E. induction w as [|c w IH]; [constructor|].
  cbn [to_lower map] in Hk. inversion Hk as [|? ? H1 H2]. constructor; [|apply IH; exact H2].
  unfold lower_byte in H1. destruct (is_upper c) eqn:E; [|exact H1].
  revert E. clear. revert c. no_newline_class.
Qed.

Create HintDb nnl.
#[export] Hint Resolve letters_no_newline image_no_newline alias_no_newline env_name_no_newline arg_name_no_newline
  word_no_newline label_word_no_newline blanks_no_newline comment_no_newline joined_plain_end joined_nil : nnl.

Lemma shell_joined p w l : shell_at p w l ->
  (match l with BComment _ :: _ => False | _ => True end -> joined false w) /\
  (forall c k s, continuation c -> skipped_lines k s -> joined false (c ++ s ++ w)).
Proof.
  induction 1 as [p w Hw Hc|p w c w2 l Hw Hn Hc H IH|p b t Hb Ht|p b t n Hb Ht Hn|p b t n w l Hb Ht Hn H IH];
    (split; [intros X; try destruct X|intros c0 k s Hc0 Hs]).
  - apply joined_plain_end. apply Hw.
  - econstructor; eauto. apply joined_plain_end. apply Hw.
  - apply joined_plain; [apply Hw|]. exact (proj2 IH c 0 [] Hc skipped_none).
  - econstructor; eauto. apply joined_plain; [apply Hw|]. exact (proj2 IH c 0 [] Hc skipped_none).
  - eapply joined_last; eassumption.
  - pose proof (skipped_app _ _ _ _ Hs (skipped_comment 0 b t n [] Hb Ht Hn skipped_none)) as K.
    rewrite app_nil_r in K.
    pose proof (joined_continued false c0 _ _ [] Hc0 K (joined_nil _)) as K2. rewrite app_nil_r in K2. exact K2.
  - pose proof (skipped_app _ _ _ _ Hs (skipped_comment 0 b t n [] Hb Ht Hn skipped_none)) as K.
    rewrite app_nil_r in K. pose proof (proj2 IH c0 _ _ Hc0 K) as K2. rewrite <- !app_assoc in K2. exact K2.
Qed.

(** A shell text that begins with a comment *)
Lemma shell_goes_on p w l : shell_at p w l ->
  joined false w \/ exists c r, w = c ++ r /\ comment_lines c /\ joined false r /\
    match l with BComment _ :: _ => True | _ => False end.
Proof.
  induction 1 as [p w Hw Hc|p w c w2 l Hw Hn Hc H IH|p b t Hb Ht|p b t n Hb Ht Hn|p b t n w l Hb Ht Hn H IH].
  - left. apply joined_plain_end. apply Hw.
  - left. apply joined_plain; [apply Hw|]. exact (proj2 (shell_joined _ _ _ H) c 0 [] Hc skipped_none).
  - left. apply joined_plain_end. apply no_newline_app; auto with nnl.
  - right. exists (b ++ t ++ n), []. rewrite app_nil_r. repeat split; constructor; assumption.
  - right. destruct IH as [IH|(c & r & -> & Hc & Hr & _)].
    + exists (b ++ t ++ n), w. rewrite <- !app_assoc. repeat split; [constructor; assumption|exact IH].
    + exists (b ++ t ++ n ++ c), r. rewrite <- !app_assoc. repeat split; [constructor; assumption|exact Hr].
Qed.

Lemma joined_weaken q w : joined false w -> joined q w.
Proof. induction 1; try (econstructor; eassumption). discriminate. Qed.

Lemma joined_last_gap q w : last_gap w -> joined q w.
Proof.
  intros [(k & H)|(k & g & c & j & l & b & t & -> & Hg & Hc & Hl & Hb & Ht)].
  - rewrite <- (app_nil_r w). eapply joined_gap; [exact H|constructor].
  - eapply joined_gap; [exact Hg|]. eapply joined_last; eassumption.
Qed.

Section Unq2.
Variable unq : bytes -> option bytes.

Lemma joined_more p m l w : more_strings unq p m l -> joined true w -> joined true (m ++ w).
Proof.
  induction 1 as [p|p j g1 k g2 v x w2 l H1 H2 Hq Hx Hm IH]; intros Hw; [exact Hw|].
  rewrite <- !app_assoc. eapply joined_gap; [exact H1|]. cbn [app]. constructor; [reflexivity|].
  rewrite <- !app_assoc. eapply joined_gap; [exact H2|]. apply joined_quoted; auto.
Qed.

Lemma array_joined p w a : array_at unq p w a -> joined true w.
Proof.
  destruct 1 as [p k g Hg|p k g w x m l comma j g2 text Hg Hq Hx Hm Hc Hg2 ->]; (constructor; [reflexivity|]).
  - eapply joined_gap; [exact Hg|]. apply joined_plain_end. repeat constructor.
  - eapply joined_gap; [exact Hg|]. apply joined_quoted; auto. eapply joined_more; [exact Hm|].
    apply joined_plain; [destruct Hc; subst; repeat constructor|].
    eapply joined_gap; [exact Hg2|]. apply joined_plain_end. repeat constructor.
Qed.

Lemma command_joined k p w sp e : no_newline (bs k) -> command_at unq k p w sp e ->
  (match e with Shell s => ~ comment_first s | Exec _ => True end) ->
  joined (match e with Shell _ => false | Exec _ => true end) w.
Proof.
  intros Hk (kw & g & c & -> & Hkw & Hg & _ & He & _) Hc.
  apply joined_plain; [apply (keyword_no_newline k); assumption|]. eapply joined_gap; [exact Hg|].
  destruct e as [s|a]; [|eapply array_joined; exact He]. destruct He as (l & Hl & ->).
  apply (shell_joined _ _ _ Hl). unfold comment_first in Hc; cbn [br_components] in Hc.
  destruct l as [|[?|?] ?]; auto.
Qed.

Lemma joined_spaced {A} (at1 : nat -> bytes -> A -> Prop) q :
  (forall p v x w, at1 p v x -> joined q w -> joined q (v ++ w)) ->
  forall p v l, spaced at1 p v l -> forall w, joined q w -> joined q (v ++ w).
Proof.
  intros H p v l. induction 1 as [|p k g v x w2 l Hg _ Hx _ IH]; intros w Hw; [exact Hw|].
  rewrite <- !app_assoc. eapply joined_gap; [exact Hg|]. eapply H; [exact Hx|]. auto.
Qed.

Lemma joined_flag q p v x w : flag_at unq p v x -> joined q w -> joined q (v ++ w).
Proof.
  intros (n & u & y & -> & Hn & Hu & _) Hw. apply joined_plain; [|exact Hw].
  apply no_newline_app; [repeat constructor|]. apply no_newline_app; [auto with nnl|].
  constructor; [reflexivity|apply word_no_newline; exact Hu].
Qed.

Lemma joined_label_name p v x w : label_name_at unq p v x -> joined true w -> joined true (v ++ w).
Proof. intros [(u & y & Hq & _)|[Hv _]] Hw; [apply joined_quoted|apply joined_plain]; auto with nnl. Qed.
Lemma joined_label_value p v x w : label_value_at unq p v x -> joined true w -> joined true (v ++ w).
Proof. intros [(u & y & Hq & _)|[Hv _]] Hw; [apply joined_quoted|apply joined_plain]; auto with nnl. Qed.
Lemma joined_label_pair p v x w : label_pair_at unq p v x -> joined true w -> joined true (v ++ w).
Proof.
  intros (n & u & -> & Hn & Hu & _) Hw. rewrite <- app_assoc. eapply joined_label_name; [exact Hn|].
  cbn [app]. constructor; [reflexivity|]. eapply joined_label_value; [exact Hu|exact Hw].
Qed.
Lemma joined_path q p v x w : path_at unq p v x -> joined q w -> joined q (v ++ w).
Proof. intros [Hv _] Hw. apply joined_plain; auto with nnl. Qed.
Lemma joined_env_pair p v x w : env_pair_at unq p v x -> joined true w -> joined true (v ++ w).
Proof.
  intros (n & u & -> & Hn & _ & Hu & _) Hw. rewrite <- app_assoc. apply joined_plain; [auto with nnl|].
  cbn [app]. constructor; [reflexivity|].
  destruct Hu as [(y & Hq & _)|[Hu _]]; [apply joined_quoted|apply joined_plain]; auto with nnl.
Qed.

Lemma instruction_joined p w i : instruction_at unq p w i -> Forall (fun s => ~ comment_first s) (shell_texts_of i) ->
  joined (has_quotes i) w.
Proof.
  destruct i as [x|x|x|x|x|x|x|x|x]; cbn [instruction_at has_quotes shell_texts_of]; intros H Hs.
  - destruct H as (kw & fl & k & g & img & al & -> & Hk & Hfl & Hg & _ & Hi & _ & _ & _ & Hal & _).
    apply joined_plain; [apply (keyword_no_newline "from"); [repeat constructor|exact Hk]|].
    eapply joined_spaced; [apply joined_flag|exact Hfl|]. eapply joined_gap; [exact Hg|].
    apply joined_plain; [auto with nnl|].
    destruct Hal as [[-> _]|(j & g1 & a & k2 & g2 & al2 & -> & H1 & _ & Ha & H2 & _ & H3 & _)]; [constructor|].
    eapply joined_gap; [exact H1|]. apply joined_plain; [apply (keyword_no_newline "as"); [repeat constructor|exact Ha]|].
    eapply joined_gap; [exact H2|]. auto with nnl.
  - destruct H as (kw & k & g & n & r & -> & Hk & Hg & _ & Hn & _ & _ & Hr).
    apply joined_plain; [apply (keyword_no_newline "arg"); [repeat constructor|exact Hk]|].
    eapply joined_gap; [exact Hg|]. apply joined_plain; [auto with nnl|].
    destruct Hr as [[-> _]|(v & y & -> & Hv & _)]; [constructor|]. constructor; [reflexivity|].
    destruct Hv as [Hv|Hv]; [|auto with nnl]. rewrite <- (app_nil_r v). apply joined_quoted; auto with nnl.
  - destruct H as (kw & r & -> & Hk & _ & Hr).
    apply joined_plain; [apply (keyword_no_newline "label"); [repeat constructor|exact Hk]|].
    destruct Hr as [(l & (j & g1 & n & k & g2 & v & -> & H1 & _ & H2 & _ & Hn & Hv & _) & _)|(ps & g & -> & _ & Hps & Hg)].
    + eapply joined_gap; [exact H1|]. eapply joined_label_name; [exact Hn|]. eapply joined_gap; [exact H2|].
      rewrite <- (app_nil_r v). eapply joined_label_value; [exact Hv|constructor].
    + eapply joined_spaced; [apply joined_label_pair|exact Hps|]. apply joined_last_gap. exact Hg.
  - eapply (command_joined "run"); [repeat constructor|exact H|]. destruct (run_expr x); [|exact I].
    inversion Hs; assumption.
  - eapply (command_joined "entrypoint"); [repeat constructor|exact H|]. destruct (entrypoint_expr x); [|exact I].
    inversion Hs; assumption.
  - eapply (command_joined "cmd"); [repeat constructor|exact H|]. destruct (cmd_expr x); [|exact I].
    inversion Hs; assumption.
  - destruct H as (kw & fl & ps & -> & Hk & Hfl & Hps & _ & _).
    apply joined_plain; [apply (keyword_no_newline "copy"); [repeat constructor|exact Hk]|].
    eapply joined_spaced; [apply joined_flag|exact Hfl|]. rewrite <- (app_nil_r ps).
    eapply joined_spaced; [apply joined_path|exact Hps|constructor].
  - destruct H as (kw & r & -> & Hk & _ & Hr).
    apply joined_plain; [apply (keyword_no_newline "env"); [repeat constructor|exact Hk]|].
    destruct Hr as [(l & (j & g1 & n & k & g2 & v & -> & H1 & _ & H2 & _ & Hn & _ & Hv & _) & E)|(ps & g & -> & _ & Hps & Hg)].
    + eapply joined_gap; [exact H1|]. apply joined_plain; [auto with nnl|]. eapply joined_gap; [exact H2|].
      destruct Hv as [(y & Hq & _)|(_ & c & Hc & Ev)].
      * rewrite <- (app_nil_r v). apply joined_quoted; auto with nnl.
      * apply joined_weaken. apply (shell_joined _ _ _ Hc). rewrite E in Hs. cbn [map] in Hs. rewrite Ev in Hs.
        inversion Hs as [|? ? Hs1 _]. unfold comment_first in Hs1; cbn [br_components] in Hs1. destruct c as [|[?|?] ?]; auto.
    + eapply joined_spaced; [apply joined_env_pair|exact Hps|]. apply joined_last_gap. exact Hg.
  - destruct H as (n & a & -> & Hn & _ & _ & (l & Hl & El) & _). apply joined_plain; [auto with nnl|].
    apply (shell_joined _ _ _ Hl). rewrite El in Hs. inversion Hs as [|? ? Hs1 _].
    unfold comment_first in Hs1; cbn [br_components] in Hs1. destruct l as [|[?|?] ?]; auto.
Qed.

(** What stands before the shell text, and the shell text *)
Lemma shell_or_on q p h w l : (forall v, joined q v -> joined q (h ++ v)) -> shell_at (p + length h) w l ->
  joined q (h ++ w) \/ goes_on_after_comments q p (h ++ w) (BreakableString (at_ (p + length h) w) l).
Proof.
  intros Hh Hl. destruct (shell_goes_on _ _ _ Hl) as [J|(c & r & -> & Hc & Hr & K)].
  - left. apply Hh. apply joined_weaken. exact J.
  - right. exists h, c, r. pose proof (Hh [] (joined_nil q)) as Hn. rewrite app_nil_r in Hn.
    repeat split; [exact Hn|exact Hc|apply joined_weaken; exact Hr|exact K].
Qed.

Lemma command_or_on k p w sp e : no_newline (bs k) -> command_at unq k p w sp e ->
  joined (match e with Shell _ => false | Exec _ => true end) w \/
  exists s, e = Shell s /\ goes_on_after_comments false p w s.
Proof.
  intros Hk (kw & g & c & -> & Hkw & Hg & _ & He & _).
  assert (J : forall q v, joined q v -> joined q ((kw ++ g) ++ v)).
  { intros q v Hv. rewrite <- app_assoc. apply joined_plain; [apply (keyword_no_newline k); assumption|].
    eapply joined_gap; [exact Hg|exact Hv]. }
  rewrite app_assoc. destruct e as [s|a]; [|left; apply J; eapply array_joined; exact He]. destruct He as (l & Hl & ->).
  rewrite <- Nat.add_assoc, <- app_length in *. destruct (shell_or_on false p (kw ++ g) c l (J false) Hl) as [X|X]; eauto.
Qed.

Lemma instruction_or_on p w i : instruction_at unq p w i ->
  joined (has_quotes i) w \/ exists s, In s (shell_texts_of i) /\ goes_on_after_comments (has_quotes i) p w s.
Proof.
  intros H. destruct i as [x|x|x|x|x|x|x|x|x]; try (left; exact (instruction_joined p w _ H (Forall_nil _)));
    cbn [instruction_at has_quotes shell_texts_of] in *.
  1: destruct (command_or_on "run" p w _ _ ltac:(repeat constructor) H) as [J|(s & E & J)].
  3: destruct (command_or_on "entrypoint" p w _ _ ltac:(repeat constructor) H) as [J|(s & E & J)].
  5: destruct (command_or_on "cmd" p w _ _ ltac:(repeat constructor) H) as [J|(s & E & J)].
  1, 3, 5: left; exact J.
  1-3: right; exists s; rewrite E; split; [left; reflexivity|exact J].
  - pose proof H as (kw & r & -> & Hk & _ & [(e & (j & g1 & n & k & g2 & v & -> & H1 & _ & H2 & _ & Hn & _ & Hv & _) & E)|(ps & g & -> & _ & Hps & Hg)]).
    + rewrite E. cbn [map In].
      assert (J : forall u, joined true u -> joined true ((kw ++ g1 ++ n ++ g2) ++ u)).
      { intros u Hu. rewrite <- !app_assoc. apply joined_plain; [apply (keyword_no_newline "env"); [repeat constructor|exact Hk]|].
        eapply joined_gap; [exact H1|]. apply joined_plain; [auto with nnl|]. eapply joined_gap; [exact H2|exact Hu]. }
      replace (kw ++ g1 ++ n ++ g2 ++ v) with ((kw ++ g1 ++ n ++ g2) ++ v) by (rewrite <- !app_assoc; reflexivity).
      destruct Hv as [(y & Hq & _)|(_ & c & Hc & Ev)].
      * left. apply J. rewrite <- (app_nil_r v). apply joined_quoted; auto with nnl.
      * replace (p + length kw + length g1 + length n + length g2) with (p + length (kw ++ g1 ++ n ++ g2)) in * by (rewrite !app_length; lia).
        rewrite Ev. destruct (shell_or_on true p _ v c J Hc) as [X|X]; eauto.
    + left. apply joined_plain; [apply (keyword_no_newline "env"); [repeat constructor|exact Hk]|].
      eapply joined_spaced; [apply joined_env_pair|exact Hps|]. apply joined_last_gap. exact Hg.
  - destruct H as (n & a & -> & Hn & _ & _ & (l & Hl & El) & _). rewrite El. cbn [In].
    destruct (shell_or_on false p n a l (fun v => joined_plain false n v ltac:(auto with nnl)) Hl) as [X|X]; eauto.
Qed.

End Unq2.
