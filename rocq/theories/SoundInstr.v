(** Soundness of the instructions: see Sound.v. *)

From Coq Require Import String.
From Verif Require Import Bytes BytesFacts Grammar Peg Result Ast Splicer Image Convert
  PegFacts SpecImage ImageFacts SpecSyntax PegRules PegTokens PegQuoted Sound SoundRules.
Local Open Scope nat_scope.

(** ** Digests *)

Lemma split_all_none c s : ~ In c s -> split_all c s = [s].
Proof.
  induction s as [|x s IH]; intros H; [reflexivity|]. cbn [split_all].
  destruct (x =? c)%N eqn:E; [apply N.eqb_eq in E; exfalso; apply H; left; exact E|].
  rewrite IH; [reflexivity|]. intros K. apply H. right. exact K.
Qed.

Lemma split_all_nonempty c s : split_all c s <> [].
Proof.
  destruct s as [|x s]; cbn [split_all]; [discriminate|].
  destruct (x =? c)%N; [discriminate|]. destruct (split_all c s); discriminate.
Qed.

Lemma split_all_one c s a : split_all c s = [a] -> s = a /\ ~ In c s.
Proof.
  revert a. induction s as [|x s IH]; intros a H; cbn [split_all] in H.
  - injection H as <-. split; [reflexivity|]. intros [].
  - pose proof (split_all_nonempty c s) as Hne. destruct (x =? c)%N eqn:E.
    + injection H as _ H. contradiction.
    + destruct (split_all c s) as [|p [|p2 ps]] eqn:Es; [congruence| |discriminate].
      injection H as <-. destruct (IH p eq_refl) as [-> Hn]. split; [reflexivity|].
      apply N.eqb_neq in E. intros [K|K]; [exact (E K)|exact (Hn K)].
Qed.

Lemma split_all_two c s a b : split_all c s = [a; b] <-> s = a ++ c :: b /\ ~ In c a /\ ~ In c b.
Proof.
  split.
  - revert a. induction s as [|x s IH]; intros a H; cbn [split_all] in H; [discriminate|].
    destruct (x =? c)%N eqn:E.
    + injection H as <- H. apply split_all_one in H. destruct H as [<- Hn]. apply N.eqb_eq in E. subst x.
      split; [reflexivity|]. split; [intros []|exact Hn].
    + destruct (split_all c s) as [|p ps] eqn:Es; [discriminate|]. injection H as <- ->.
      destruct (IH p eq_refl) as (-> & Ha & Hb). apply N.eqb_neq in E. split; [reflexivity|]. split; [|exact Hb].
      intros [K|K]; [exact (E K)|exact (Ha K)].
  - intros (-> & Ha & Hb). induction a as [|x a IH]; cbn [app split_all].
    + rewrite N.eqb_refl, (split_all_none c b Hb). reflexivity.
    + destruct (x =? c)%N eqn:E; [apply N.eqb_eq in E; exfalso; apply Ha; left; exact E|].
      rewrite IH; [reflexivity|]. intros K. apply Ha. right. exact K.
Qed.

Lemma digest_ok_spec h : digest_ok h = true <-> digest_accepted h.
Proof.
  unfold digest_ok, digest_accepted. split.
  - destruct (split_all COLON h) as [|a [|x [|y l]]] eqn:E; try discriminate. intros H.
    apply split_all_two in E. destruct E as (-> & Ha & Hx).
    apply andb_true_iff in H. destruct H as [H Hl]. apply andb_true_iff in H. destruct H as [H Hh].
    apply beqb_eq in H. subst a. apply Nat.eqb_eq in Hl. exists x. split; [reflexivity|]. split; [exact Hl|].
    split; [exact Hx|]. apply existsb_exists in Hh. exact Hh.
  - intros (x & -> & Hl & Hx & Hh).
    assert (E : split_all COLON (bs "sha256:" ++ x) = [bs "sha256"; x]).
    { apply split_all_two. split; [reflexivity|]. split; [|exact Hx]. cbn. intros K.
      repeat (destruct K as [K|K]; [discriminate|]). exact K. }
    rewrite E. apply andb_true_iff. split; [|apply Nat.eqb_eq; exact Hl].
    apply andb_true_iff. split; [reflexivity|]. apply existsb_exists. exact Hh.
Qed.

Ltac span_eq := unfold at_, span_of; cbn; rewrite ?app_length; cbn [length]; f_equal; lia.

(** Closes a goal equal to [H] up to arithmetic in a position. *)
Ltac replace_pos H :=
  match type of H with
  | ?P _ ?a ?b ?c => match goal with |- P _ ?n _ _ => replace n with a by lia; exact H end
  | ?P ?a ?b ?c => match goal with |- P ?n _ _ => replace n with a by lia; exact H end
  end.

Section Instr.
Variable unq : bytes -> option bytes.
Variable src : bytes.

Notation yields := (yields unq src).
Notation pos := (pos src).

Lemma keyword_inv k c p s q s' f : to_lower (bs k) = bs k -> run c (Insens (bs k)) p s = Done q s' f ->
  exists w, s = w ++ s' /\ q = p + length w /\ keyword k w /\ f = [].
Proof.
  intros Hk H. apply insens_inv in H. destruct H as (w & -> & Hw & -> & ->). exists w.
  unfold keyword. rewrite Hw, Hk. auto.
Qed.

Lemma class_not_quoted (P : N -> bool) w : Forall (fun c => P c = true) w ->
  P DQUOTE = false -> P SQUOTE = false -> P BACKTICK = false -> ~ begins_quoted w.
Proof.
  intros H H1 H2 H3 (c & t & -> & Hc). inversion H as [|? ? K]. subst.
  destruct Hc as [->|[->| ->]]; congruence.
Qed.

Lemma compound_inv r c p s q s' f : run c (Call r) p s = Done q s' f -> fst (grammar r) = CompoundRule ->
  look c = false ->
  exists f', run ctx0 (snd (grammar r)) p s = Done q s' f' /\ f = [Node r p q f'].
Proof.
  intros H Hk Hc. apply call_inv in H. destruct H as (f' & H & ->). rewrite Hk in *.
  cbn [rule_inner rule_outer rule_tokens] in *. rewrite Hc in *. exists f'. auto.
Qed.

(** A token whose body is [any_whitespace] *)
Lemma word_rule_inv r k p s q s' f : grammar r = (k, any_whitespace) -> k <> Silent -> valid_utf8 s = true ->
  run ctx0 (Call r) p s = Done q s' f ->
  exists w ch, s = w ++ s' /\ q = p + length w /\ word w /\ f = [Node r p q ch].
Proof.
  intros Hr Hk Hv H. apply token_inv in H; [|rewrite Hr; exact Hk]. destruct H as (f' & H & ->).
  rewrite Hr in H. cbn [fst snd] in H. apply any_whitespace_inv in H; [|exact Hv].
  destruct H as (w & -> & -> & Hw & _). exists w, f'. auto.
Qed.

Lemma letters_rule_inv r p s q s' f : grammar r = (AtomicRule, rep1 ASCII_ALPHA) ->
  run ctx0 (Call r) p s = Done q s' f ->
  exists w ch, s = w ++ s' /\ q = p + length w /\ letters w /\ f = [Node r p q ch] /\
    match s' with c :: _ => is_alpha c = false | [] => True end.
Proof.
  intros Hr H. apply token_inv in H; [|rewrite Hr; discriminate]. destruct H as (f' & H & ->).
  rewrite Hr in H. cbn [fst snd] in H. apply (class_rep1_inv _ is_alpha) in H; [|reflexivity|apply class_alpha].
  destruct H as (w & -> & -> & Hne & Hw & _ & Hs). exists w, f'. repeat split; auto.
Qed.

Lemma quoted_rule_token_inv r k p s q s' f : grammar r = (k, string_) -> k <> Silent -> k <> AtomicRule ->
  valid_utf8 s = true -> run ctx0 (Call r) p s = Done q s' f ->
  exists w ch, s = w ++ s' /\ q = p + length w /\ quoted_text w /\ f = [Node r p q ch].
Proof.
  intros Hr Hk Hk2 Hv H. apply token_inv in H; [|rewrite Hr; exact Hk]. destruct H as (f' & H & ->).
  rewrite Hr in H. cbn [fst snd] in H.
  apply string_inv in H; [|exact Hv|destruct k; reflexivity].
  destruct H as (w & ch & -> & -> & Hw & ->). eexists w, _. auto.
Qed.

Lemma letters_not_quoted w : letters w -> ~ begins_quoted w.
Proof. intros [_ H]. apply (class_not_quoted is_alpha w H); reflexivity. Qed.

(** ** Flags *)

Lemma flag_tokens r rn rv p s q s' f :
  grammar r = (Normal, Seq (Str [DASH; DASH]) (Seq (Call rn) (Seq (Str [EQUALS]) (Call rv)))) ->
  good (Seq (Str [DASH; DASH]) (Seq (Call rn) (Seq (Str [EQUALS]) (Call rv)))) = true ->
  grammar rn = (AtomicRule, rep1 ASCII_ALPHA) -> grammar rv = (AtomicRule, any_whitespace) ->
  valid_utf8 s = true -> run ctx0 (Call r) p s = Done q s' f ->
  exists name value c1 c2,
    s = ([DASH; DASH] ++ name ++ EQUALS :: value) ++ s' /\
    q = p + length ([DASH; DASH] ++ name ++ EQUALS :: value) /\ letters name /\ word value /\
    f = [Node r p (p + length ([DASH; DASH] ++ name ++ EQUALS :: value))
           [Node rn (p + 2) (p + 2 + length name) c1;
            Node rv (p + 2 + length name + 1) (p + 2 + length name + 1 + length value) c2]].
Proof.
  intros Hr G Hn Hw Hv H. apply token_inv in H; [|rewrite Hr; discriminate]. destruct H as (f' & H & ->).
  rewrite Hr in H. cbn [fst snd rule_inner rule_outer] in H.
  apply seq_inv in H; [|exact G]. destruct H as (q1 & s1 & f1 & f2 & H1 & H & ->).
  apply good_sub in G. destruct G as [_ G].
  apply str_inv in H1. destruct H1 as (-> & -> & ->). rewrite valid_utf8_ascii_app in Hv by reflexivity.
  apply seq_inv in H; [|exact G]. destruct H as (q2 & s2 & f3 & f4 & H1 & H & ->).
  apply good_sub in G. destruct G as [_ G].
  pose proof (run_valid _ _ _ _ _ _ _ H1 Hv eq_refl) as Hv1.
  apply letters_rule_inv in H1; [|exact Hn]. destruct H1 as (name & c1 & -> & -> & Hl & -> & _).
  apply seq_inv in H; [|exact G]. destruct H as (q3 & s3 & f5 & f6 & H1 & H & ->).
  apply str_inv in H1. destruct H1 as (-> & -> & ->). rewrite valid_utf8_ascii_app in Hv1 by reflexivity.
  apply (word_rule_inv rv AtomicRule) in H; [|exact Hw|discriminate|exact Hv1].
  destruct H as (value & c2 & -> & -> & Hval & ->).
  exists name, value, c1, c2. cbn [length] in *.
  assert (El : p + length ([DASH; DASH] ++ name ++ EQUALS :: value) = p + 2 + length name + 1 + length value).
  { rewrite !app_length. cbn [length]. lia. }
  rewrite El. repeat split; auto; try apply Hl; try apply Hval. rewrite <- !app_assoc. reflexivity.
Qed.

Lemma flag_result name value c1 rn c2 rv p s : pos p (([DASH; DASH] ++ name ++ EQUALS :: value) ++ s) ->
  letters name ->
  parse_string unq src (Node rn (p + 2) (p + 2 + length name) c1) = Ok (SpannedString (at_ (p + 2) name) name) /\
  yields (string_at unq (p + 2 + length name + 1) value)
    (parse_string unq src (Node rv (p + 2 + length name + 1) (p + 2 + length name + 1 + length value) c2)).
Proof.
  intros Hp Hl. rewrite <- !app_assoc in Hp. apply pos_app in Hp. cbn [length] in Hp.
  split.
  - eapply parse_string_plain; [exact Hp|]. apply letters_not_quoted. exact Hl.
  - apply pos_app in Hp. change ((EQUALS :: value) ++ s) with ([EQUALS] ++ value ++ s) in Hp.
    apply pos_app in Hp. eapply parse_string_at. exact Hp.
Qed.

Lemma from_flag_inv p s q s' f : valid_utf8 s = true -> pos p s -> run ctx0 (Call R_from_flag) p s = Done q s' f ->
  exists w t, s = w ++ s' /\ q = p + length w /\ f = [t] /\ t_rule t = R_from_flag /\
    yields (flag_at unq p w) (from_flag_of unq src t).
Proof.
  intros Hv Hp H. apply (flag_tokens _ R_from_flag_name R_from_flag_value) in H; try reflexivity; [|exact Hv].
  destruct H as (name & value & c1 & c2 & -> & -> & Hn & Hval & ->).
  eexists _, _. split; [reflexivity|]. split; [reflexivity|]. split; [reflexivity|]. split; [reflexivity|].
  destruct (flag_result name value c1 R_from_flag_name c2 R_from_flag_value p s' Hp Hn) as [E1 E2].
  unfold from_flag_of. cbn [t_children for_each t_rule]. rewrite E1. cbn [bind t_rule].
  match type of E2 with Sound.yields _ _ _ ?o => destruct o as [v|e| |] end; cbn [bind ok_or] in *; try exact E2.
  exists name, value, v. auto.
Qed.

Lemma copy_flag_inv p s q s' f : valid_utf8 s = true -> pos p s -> run ctx0 (Call R_copy_flag) p s = Done q s' f ->
  exists w t, s = w ++ s' /\ q = p + length w /\ f = [t] /\ t_rule t = R_copy_flag /\
    yields (flag_at unq p w) (copy_flag_of unq src t).
Proof.
  intros Hv Hp H. apply (flag_tokens _ R_copy_flag_name R_copy_flag_value) in H; try reflexivity; [|exact Hv].
  destruct H as (name & value & c1 & c2 & -> & -> & Hn & Hval & ->).
  eexists _, _. split; [reflexivity|]. split; [reflexivity|]. split; [reflexivity|]. split; [reflexivity|].
  destruct (flag_result name value c1 R_copy_flag_name c2 R_copy_flag_value p s' Hp Hn) as [E1 E2].
  unfold copy_flag_of. cbn [t_children for_each t_rule]. rewrite E1. cbn [bind t_rule].
  match type of E2 with Sound.yields _ _ _ ?o => destruct o as [v|e| |] end; cbn [bind ok_or] in *; try exact E2.
  exists name, value, v. auto.
Qed.

(** ** FROM *)

Notation from_state := (option tree * option tree * list flag)%type (only parsing).
Definition from_step : from_state -> tree -> outcome from_state := fun '(image_field, alias_field, flags) field =>
  match t_rule field with
  | R_from_flag => x <- from_flag_of unq src field;; Ok (image_field, alias_field, flags ++ [x])
  | R_from_image => Ok (Some field, alias_field, flags)
  | R_from_alias => Ok (image_field, Some field, flags)
  | R_comment => Ok (image_field, alias_field, flags)
  | r => unexpected_token r
  end.
Definition add_flag (st : from_state) (x : flag) : from_state :=
  let '(i, a, flags) := st in (i, a, flags ++ [x]).

Lemma fold_add_flag l i a fl : fold_left add_flag l (i, a, fl) = (i, a, fl ++ l).
Proof.
  revert fl. induction l as [|x l IH]; intros fl; cbn [fold_left add_flag]; [rewrite app_nil_r; reflexivity|].
  rewrite IH, <- app_assoc. reflexivity.
Qed.

Lemma from_step_comments : skips_comments from_step.
Proof. intros [[i a] fl] t H. unfold from_step. rewrite H. reflexivity. Qed.

Lemma alias_inv p s q s' f : valid_utf8 s = true -> pos p s ->
  run ctx0 (Opt (Call R_from_alias_outer)) p s = Done q s' f ->
  exists w, s = w ++ s' /\ q = p + length w /\
    exists x, alias_at p w x /\ forall i fl,
      for_each from_step f (i, None, fl) = Ok (i, match x with Some y => Some (Node R_from_alias (s_start (ss_span y)) (s_end (ss_span y)) []) | None => None end, fl) /\
      match x with Some y => parse_string unq src (Node R_from_alias (s_start (ss_span y)) (s_end (ss_span y)) []) = Ok y | None => True end.
Proof.
  intros Hv Hp H. apply opt_inv in H; [|reflexivity]. destruct H as [H|(_ & -> & -> & ->)].
  - call_open H. cbn [grammar fst snd rule_inner rule_outer rule_tokens] in *.
    seq_open H Hv H1. seq_open H Hv0 H2. seq_open H Hv1 H3.
    apply token_inv in H; [|discriminate]. destruct H as (fa & H & ->).
    cbn [grammar fst snd rule_inner rule_outer] in H. call_open H.
    cbn [grammar fst snd rule_inner rule_outer rule_tokens] in H.
    apply (class_rep1_inv _ alias_char) in H; [|reflexivity|apply class_alias].
    destruct H as (a & -> & -> & Hne & Ha & -> & _).
    apply gap_inv_more in H3; [|exact Hv1|destruct a; [congruence|discriminate]].
    destruct H3 as (g2 & -> & -> & Hc2 & Hg2n & Hg2).
    apply (keyword_inv "as") in H2; [|reflexivity]. destruct H2 as (k & -> & -> & Hk & ->).
    apply gap_inv_more in H1; [|exact Hv|].
    2:{ destruct g2; [congruence|]. destruct k; discriminate. }
    destruct H1 as (g1 & -> & -> & Hc1 & Hg1n & Hg1).
    exists (g1 ++ k ++ g2 ++ a). split; [rewrite <- !app_assoc; reflexivity|].
    split; [rewrite !app_length; lia|]. eexists (Some (SpannedString (at_ (p + length g1 + length k + length g2) a) a)).
    split; [right; eexists _, g1, k, _, g2, a; repeat split; eauto|].
    intros i fl. split.
    + cbn [app]. rewrite for_each_gap by (assumption || apply from_step_comments).
      rewrite for_each_gap by (assumption || apply from_step_comments). reflexivity.
    + cbn [s_start s_end ss_span at_]. do 3 apply pos_app in Hp. eapply parse_string_plain; [exact Hp|].
      apply (class_not_quoted alias_char a Ha); reflexivity.
  - exists []. split; [reflexivity|]. split; [cbn; lia|]. exists None. split; [left; auto|].
    intros i fl. split; [reflexivity|exact I].
Qed.

Lemma from_inv p s q s' f : valid_utf8 s = true -> pos p s -> run ctx0 (Call R_from) p s = Done q s' f ->
  exists w t, s = w ++ s' /\ q = p + length w /\ f = [t] /\ t_rule t = R_from /\
    forall n, yields (from_at unq p w) (from_of unq src t n).
Proof.
  intros Hv Hp H. apply token_inv in H; [|discriminate]. destruct H as (f' & H & ->).
  cbn [grammar fst snd rule_inner rule_outer] in H.
  seq_open H Hv H1. seq_open H Hv0 H2. seq_open H Hv1 H3. seq_open H Hv2 H4.
  apply (keyword_inv "from") in H1; [|reflexivity]. destruct H1 as (kw & -> & -> & Hkw & ->).
  pose proof (pos_app _ _ _ _ Hp) as Hp1.
  apply (spaced_inv unq src R_from_flag (flag_at unq) (from_flag_of unq src) from_step add_flag) in H2;
    [|reflexivity|reflexivity|reflexivity|apply from_flag_inv
     |intros [[i a] fl] t Ht; unfold from_step; rewrite Ht; reflexivity|apply from_step_comments|exact Hv0|exact Hp1].
  destruct H2 as (fl & -> & -> & Hfl). pose proof (pos_app _ _ _ _ Hp1) as Hp2.
  pose proof (run_strict _ _ _ _ _ _ _ H4 eq_refl) as Hs.
  apply gap_inv_more in H3; [|exact Hv1|intros ->; cbn in Hs; lia].
  destruct H3 as (g & -> & -> & Hc & Hgn & Hg). pose proof (pos_app _ _ _ _ Hp2) as Hp3.
  apply token_inv in H4; [|discriminate]. destruct H4 as (fi & H4 & ->). cbn [grammar fst snd] in H4.
  apply (class_rep1_inv _ image_char) in H4; [|reflexivity|apply class_image].
  destruct H4 as (img & -> & -> & Hin & Hi & -> & _). pose proof (pos_app _ _ _ _ Hp3) as Hp4.
  apply alias_inv in H; [|exact Hv3|exact Hp4]. destruct H as (al & -> & -> & x & Hx & Hal).
  eexists (kw ++ fl ++ g ++ img ++ al), _.
  split; [rewrite <- !app_assoc; reflexivity|]. split; [rewrite !app_length; lia|].
  split; [reflexivity|]. split; [reflexivity|]. intros n.
  unfold from_of. match goal with |- context [for_each ?f _ (None, None, [])] => change f with from_step end.
  cbn [t_children app]. rewrite for_each_app.
  eapply yields_bind with (P := fun st => exists l, spaced (flag_at unq) (p + length kw) fl l /\
    st = (Some (Node R_from_image (p + length kw + length fl + length g) (p + length kw + length fl + length g + length img) []),
          match x with Some y => Some (Node R_from_alias (s_start (ss_span y)) (s_end (ss_span y)) []) | None => None end, l)).
  - eapply yields_bind; [apply Hfl|]. intros st (l & Hl & ->). rewrite fold_add_flag. cbn [app].
    rewrite for_each_gap by (assumption || apply from_step_comments).
    cbn [app for_each from_step t_rule bind]. destruct (Hal (Some (Node R_from_image (p + length kw + length fl + length g) (p + length kw + length fl + length g + length img) [])) l) as [E _].
    rewrite E. cbn. eauto.
  - intros st (l & Hl & ->). cbn beta iota. rewrite (parse_string_plain unq src _ _ _ _ _ Hp3) by
      (apply (class_not_quoted image_char img Hi); reflexivity).
    cbn [bind ss_content]. pose proof (proj1 (image_parse_spec img _) eq_refl) as Himg.
    eapply yields_bind with (P := fun _ => forall h, i_hash (image_parse img) = Some h -> digest_accepted h).
    + destruct (i_hash (image_parse img)) as [h|] eqn:Eh.
      * destruct (digest_ok h) eqn:Ed.
        -- intros h' Eh'. injection Eh' as <-. apply digest_ok_spec. exact Ed.
        -- apply (cause_digest unq src img); [apply (pos_found _ _ _ _ Hp3)|].
           split; [split; [exact Hin|exact Hi]|]. exists (image_parse img), h. split; [exact Himg|]. split; [exact Eh|].
           intros K. apply digest_ok_spec in K. congruence.
      * intros h K. discriminate.
    + intros _ Hd. eapply yields_bind with (P := fun y => y = x).
      * destruct x as [y|]; [|reflexivity]. destruct (Hal None []) as [_ E]. rewrite E. reflexivity.
      * intros y ->. cbn. eexists kw, fl, _, g, img, al.
        split; [reflexivity|]. split; [exact Hkw|]. split; [exact Hl|]. split; [exact Hg|].
        split; [exact Hgn|]. split; [split; [exact Hin|exact Hi]|].
        split; [reflexivity|]. split; [exact Himg|]. split; [exact Hd|]. split; [exact Hx|].
        cbn. unfold at_. rewrite !app_length, !Nat.add_assoc. reflexivity.
Qed.

(** ** ARG *)

Notation two := (option spanned_string * option spanned_string)%type (only parsing).

Definition arg_step : two -> tree -> outcome two := fun '(name, value) field =>
  match t_rule field with
  | R_arg_name => x <- parse_string unq src field;; Ok (Some x, value)
  | R_arg_quoted_value => x <- parse_string unq src field;; Ok (name, Some x)
  | R_arg_value => x <- parse_string unq src field;; Ok (name, Some x)
  | R_comment => Ok (name, value)
  | r => unexpected_token r
  end.

Lemma arg_step_comments : skips_comments arg_step.
Proof. intros [n v] t H. unfold arg_step. rewrite H. reflexivity. Qed.

Lemma is_alpha_word c : is_alpha c = true -> is_word c = true.
Proof. unfold is_word, is_alnum. intros ->. reflexivity. Qed.

Lemma word_class_not_quoted w : Forall (fun c => is_word c = true) w -> ~ begins_quoted w.
Proof. intros H. apply (class_not_quoted is_word w H); reflexivity. Qed.

Lemma arg_name_inv p s q s' f : run ctx0 (Call R_arg_name) p s = Done q s' f ->
  exists w ch, s = w ++ s' /\ q = p + length w /\ arg_name_text w /\ f = [Node R_arg_name p q ch].
Proof.
  intros H. apply token_inv in H; [|discriminate]. destruct H as (f' & H & ->). cbn [grammar fst snd] in H.
  apply seq_inv in H; [|reflexivity]. destruct H as (q1 & s1 & f1 & f2 & H1 & H & ->).
  rewrite class_alpha in H1. destruct s as [|x s]; [discriminate|]. destruct (is_alpha x) eqn:E; [|discriminate].
  injection H1 as <- <- <-. rewrite (class_rep _ is_word) in H; [|reflexivity|apply class_word].
  injection H as <- <- <-. pose proof (take_drop is_word s) as Es. pose proof (take_while_all is_word s) as Ha.
  eexists (x :: take_while is_word s), _. cbn [app length]. rewrite Es.
  split; [reflexivity|]. split; [lia|]. split; [exists x, (take_while is_word s); auto|]. reflexivity.
Qed.

Lemma arg_value_inv p s q s' f : valid_utf8 s = true -> pos p s ->
  run ctx0 (Alt (Call R_arg_quoted_value) (Call R_arg_value)) p s = Done q s' f ->
  exists w, s = w ++ s' /\ q = p + length w /\ (quoted_text w \/ word w) /\
    forall n v, yields (fun st => exists x, string_at unq p w x /\ st = (n, Some x)) (for_each arg_step f (n, v)).
Proof.
  intros Hv Hp H. apply alt_inv in H; [|reflexivity]. destruct H as [H|[_ H]].
  - apply (quoted_rule_token_inv _ CompoundRule) in H; [|reflexivity|discriminate|discriminate|exact Hv].
    destruct H as (w & ch & -> & -> & Hw & ->). exists w. repeat split; auto.
    intros n v. cbn [for_each arg_step t_rule].
    eapply yields_bind; [|intros a Ha; exact Ha].
    eapply yields_bind; [eapply parse_string_at; exact Hp|]. intros x Hx. cbn. eauto.
  - apply (word_rule_inv _ CompoundRule) in H; [|reflexivity|discriminate|exact Hv].
    destruct H as (w & ch & -> & -> & Hw & ->). exists w. repeat split; auto.
    intros n v. cbn [for_each arg_step t_rule].
    eapply yields_bind; [|intros a Ha; exact Ha].
    eapply yields_bind; [eapply parse_string_at; exact Hp|]. intros x Hx. cbn. eauto.
Qed.

Lemma arg_inv p s q s' f : valid_utf8 s = true -> pos p s -> run ctx0 (Call R_arg) p s = Done q s' f ->
  exists w t, s = w ++ s' /\ q = p + length w /\ f = [t] /\ t_rule t = R_arg /\
    yields (arg_at unq p w) (arg_of unq src t).
Proof.
  intros Hv Hp H. apply token_inv in H; [|discriminate]. destruct H as (f' & H & ->).
  cbn [grammar fst snd rule_inner rule_outer] in H.
  seq_open H Hv H1. seq_open H Hv0 H2. seq_open H Hv1 H3.
  apply (keyword_inv "arg") in H1; [|reflexivity]. destruct H1 as (kw & -> & -> & Hkw & ->).
  pose proof (pos_app _ _ _ _ Hp) as Hp1. pose proof (run_strict _ _ _ _ _ _ _ H3 eq_refl) as Hs.
  apply gap_inv_more in H2; [|exact Hv0|intros ->; cbn in Hs; lia].
  destruct H2 as (g & -> & -> & Hc & Hgn & Hg). pose proof (pos_app _ _ _ _ Hp1) as Hp2.
  apply arg_name_inv in H3. destruct H3 as (name & ch & -> & -> & Hn & ->). pose proof (pos_app _ _ _ _ Hp2) as Hp3.
  assert (En : forall st, for_each arg_step [Node R_arg_name (p + length kw + length g) (p + length kw + length g + length name) ch] (None, st)
     = Ok (Some (SpannedString (at_ (p + length kw + length g) name) name), st)).
  { intros st. cbn [for_each arg_step t_rule]. rewrite (parse_string_plain unq src _ _ _ _ _ Hp2); [reflexivity|].
    apply word_class_not_quoted. destruct Hn as (c & t & -> & Hc1 & Ht). constructor; [apply is_alpha_word; exact Hc1|exact Ht]. }
  unfold arg_of. apply opt_inv in H; [|reflexivity]. destruct H as [H|(_ & -> & -> & ->)].
  - seq_open H Hv2 H4. apply str_inv in H4. destruct H4 as (-> & -> & ->). cbn [length] in *.
    pose proof (pos_app _ _ [EQUALS] _ Hp3) as Hp4.
    apply arg_value_inv in H; [|exact Hv3|exact Hp4]. destruct H as (value & -> & -> & Hval & Hy).
    eexists (kw ++ g ++ name ++ EQUALS :: value), _.
    split; [rewrite <- !app_assoc; reflexivity|]. split; [rewrite !app_length; cbn [length]; lia|].
    split; [reflexivity|]. split; [reflexivity|].
    match goal with |- context [for_each ?f _ (None, None)] => change f with arg_step end.
    cbn [t_children app]. rewrite for_each_gap by (assumption || apply arg_step_comments).
    match goal with |- context [for_each arg_step (?x :: ?l)] => change (x :: l) with ([x] ++ l) end.
    rewrite for_each_app, En. cbn [bind]. eapply yields_bind; [apply Hy|]. intros st (x & Hx & ->). cbn.
    eexists kw, _, g, name, (EQUALS :: value). repeat split; eauto.
    + span_eq.
    + right. exists value, x. auto.
  - eexists (kw ++ g ++ name ++ []), _.
    split; [rewrite app_nil_r, <- !app_assoc; reflexivity|]. split; [rewrite !app_length; cbn [length]; lia|].
    split; [reflexivity|]. split; [reflexivity|].
    match goal with |- context [for_each ?f _ (None, None)] => change f with arg_step end.
    cbn [t_children app]. rewrite for_each_gap by (assumption || apply arg_step_comments).
    rewrite app_nil_r, En. cbn.
    eexists kw, _, g, name, []. repeat split; eauto.
    + rewrite app_nil_r. reflexivity.
    + span_eq.
Qed.

(** ** LABEL *)

Definition label_step : two -> tree -> outcome two := fun '(name, value) field =>
  match t_rule field with
  | R_label_name | R_label_single_name => x <- parse_string unq src field;; Ok (Some x, value)
  | R_label_quoted_name | R_label_single_quoted_name =>
    x <- unquote_clean unq src field;; Ok (Some x, value)
  | R_label_value => x <- parse_string unq src field;; Ok (name, Some x)
  | R_label_quoted_value => x <- unquote_clean unq src field;; Ok (name, Some x)
  | R_comment => Ok (name, value)
  | r => unexpected_token r
  end.

Lemma label_step_comments : skips_comments label_step.
Proof. intros [n v] t H. unfold label_step. rewrite H. reflexivity. Qed.

Lemma equals_rule_inv r k p s q s' f : grammar r = (k, any_equals) -> k <> Silent -> valid_utf8 s = true ->
  run ctx0 (Call r) p s = Done q s' f ->
  exists w ch, s = w ++ s' /\ q = p + length w /\ label_word w /\ f = [Node r p q ch].
Proof.
  intros Hr Hk Hv H. apply token_inv in H; [|rewrite Hr; exact Hk]. destruct H as (f' & H & ->).
  rewrite Hr in H. cbn [fst snd] in H. apply any_equals_inv in H; [|exact Hv].
  destruct H as (w & -> & -> & Hw & _). exists w, f'. auto.
Qed.

Lemma label_name_inv rq rn k p s q s' f :
  (rq = R_label_quoted_name /\ rn = R_label_name /\ k = CompoundRule \/
   rq = R_label_single_quoted_name /\ rn = R_label_single_name /\ k = Normal) ->
  valid_utf8 s = true -> pos p s ->
  run ctx0 (Alt (Call rq) (Call rn)) p s = Done q s' f ->
  exists w, s = w ++ s' /\ q = p + length w /\ w <> [] /\
    forall n v, yields (fun st => exists x, label_name_at unq p w x /\ st = (Some x, v)) (for_each label_step f (n, v)).
Proof.
  intros Hr Hv Hp H. apply alt_inv in H; [|destruct Hr as [(-> & -> & _)|(-> & -> & _)]; reflexivity].
  destruct H as [H|[_ H]].
  - apply (quoted_rule_token_inv _ k) in H;
      [|destruct Hr as [(-> & -> & ->)|(-> & -> & ->)]; reflexivity
       |destruct Hr as [(-> & -> & ->)|(-> & -> & ->)]; discriminate
       |destruct Hr as [(-> & -> & ->)|(-> & -> & ->)]; discriminate|exact Hv].
    destruct H as (w & ch & -> & -> & Hw & ->). exists w. split; [reflexivity|]. split; [reflexivity|].
    split; [destruct Hw as (? & ? & _ & -> & _); discriminate|].
    intros n v. cbn [for_each].
    eapply yields_bind with (P := fun st => exists x, label_name_at unq p w x /\ st = (Some x, v)); [|intros a Ha; exact Ha].
    assert (E : label_step (n, v) (Node rq p (p + length w) ch) =
      (x <- unquote_clean unq src (Node rq p (p + length w) ch);; Ok (Some x, v))).
    { destruct Hr as [(-> & -> & _)|(-> & -> & _)]; reflexivity. }
    rewrite E. eapply yields_bind; [eapply unquote_clean_at; [exact Hp|exact Hw]|]. intros x Hx.
    cbn. exists x. split; [left; exact Hx|reflexivity].
  - apply (equals_rule_inv _ k) in H;
      [|destruct Hr as [(-> & -> & ->)|(-> & -> & ->)]; reflexivity
       |destruct Hr as [(-> & -> & ->)|(-> & -> & ->)]; discriminate|exact Hv].
    destruct H as (w & ch & -> & -> & Hw & ->). exists w. split; [reflexivity|]. split; [reflexivity|].
    split; [apply Hw|].
    intros n v. cbn [for_each].
    eapply yields_bind with (P := fun st => exists x, label_name_at unq p w x /\ st = (Some x, v)); [|intros a Ha; exact Ha].
    assert (E : label_step (n, v) (Node rn p (p + length w) ch) =
      (x <- parse_string unq src (Node rn p (p + length w) ch);; Ok (Some x, v))).
    { destruct Hr as [(-> & -> & _)|(-> & -> & _)]; reflexivity. }
    rewrite E. eapply yields_bind; [eapply parse_string_at; exact Hp|]. intros x Hx.
    cbn. exists x. split; [right; auto|reflexivity].
Qed.

Lemma label_value_inv p s q s' f : valid_utf8 s = true -> pos p s ->
  run ctx0 (Alt (Call R_label_quoted_value) (Call R_label_value)) p s = Done q s' f ->
  exists w, s = w ++ s' /\ q = p + length w /\ w <> [] /\
    forall n v, yields (fun st => exists x, label_value_at unq p w x /\ st = (n, Some x)) (for_each label_step f (n, v)).
Proof.
  intros Hv Hp H. apply alt_inv in H; [|reflexivity]. destruct H as [H|[_ H]].
  - apply (quoted_rule_token_inv _ CompoundRule) in H; [|reflexivity|discriminate|discriminate|exact Hv].
    destruct H as (w & ch & -> & -> & Hw & ->). exists w. split; [reflexivity|]. split; [reflexivity|].
    split; [destruct Hw as (? & ? & _ & -> & _); discriminate|].
    intros n v. cbn [for_each label_step t_rule].
    eapply yields_bind with (P := fun st => exists x, label_value_at unq p w x /\ st = (n, Some x)); [|intros a Ha; exact Ha].
    eapply yields_bind; [eapply unquote_clean_at; [exact Hp|exact Hw]|]. intros x Hx. cbn.
    exists x. split; [left; exact Hx|reflexivity].
  - apply (word_rule_inv _ CompoundRule) in H; [|reflexivity|discriminate|exact Hv].
    destruct H as (w & ch & -> & -> & Hw & ->). exists w. split; [reflexivity|]. split; [reflexivity|].
    split; [apply Hw|].
    intros n v. cbn [for_each label_step t_rule].
    eapply yields_bind with (P := fun st => exists x, label_value_at unq p w x /\ st = (n, Some x)); [|intros a Ha; exact Ha].
    eapply yields_bind; [eapply parse_string_at; exact Hp|]. intros x Hx. cbn.
    exists x. split; [right; auto|reflexivity].
Qed.

Lemma label_pair_inv p s q s' f : valid_utf8 s = true -> pos p s -> run ctx0 (Call R_label_pair) p s = Done q s' f ->
  exists w t, s = w ++ s' /\ q = p + length w /\ f = [t] /\ t_rule t = R_label_pair /\
    yields (label_pair_at unq p w) (label_of unq src t).
Proof.
  intros Hv Hp H. apply token_inv in H; [|discriminate]. destruct H as (f' & H & ->).
  cbn [grammar fst snd rule_inner rule_outer] in H. seq_open H Hv H1. seq_open H Hv0 H2.
  apply (label_name_inv _ _ CompoundRule) in H1; [|auto|exact Hv|exact Hp].
  destruct H1 as (n & -> & -> & _ & Hn). pose proof (pos_app _ _ _ _ Hp) as Hp1.
  apply str_inv in H2. destruct H2 as (-> & -> & ->). cbn [length] in *.
  pose proof (pos_app _ _ [EQUALS] _ Hp1) as Hp2.
  apply label_value_inv in H; [|exact Hv1|exact Hp2]. destruct H as (v & -> & -> & _ & Hy).
  eexists (n ++ EQUALS :: v), _. split; [rewrite <- !app_assoc; reflexivity|].
  split; [rewrite app_length; cbn [length]; lia|]. split; [reflexivity|]. split; [reflexivity|].
  unfold label_of. match goal with |- context [for_each ?f _ (None, None)] => change f with label_step end.
  cbn [t_children app].
  eapply yields_bind with (P := fun st => exists x y, label_name_at unq p n x /\ label_value_at unq (p + length n + 1) v y /\ st = (Some x, Some y)).
  - rewrite for_each_app. eapply yields_bind; [apply Hn|]. intros st (x & Hx & ->).
    eapply yields_impl; [apply Hy|]. intros st (y & Hyy & ->). eauto.
  - intros st (x & y & Hx & Hyy & ->). cbn. exists n, v. repeat split; auto. span_eq.
Qed.

Lemma label_single_inv p s q s' f : valid_utf8 s = true -> pos p s -> run ctx0 (Call R_label_single) p s = Done q s' f ->
  exists w t, s = w ++ s' /\ q = p + length w /\ f = [t] /\ t_rule t = R_label_single /\
    yields (label_single_at unq p w) (label_of unq src t).
Proof.
  intros Hv Hp H. apply token_inv in H; [|discriminate]. destruct H as (f' & H & ->).
  cbn [grammar fst snd rule_inner rule_outer] in H. seq_open H Hv H1. seq_open H Hv0 H2. seq_open H Hv1 H3.
  pose proof (run_strict _ _ _ _ _ _ _ H2 eq_refl) as Hs. pose proof (run_strict _ _ _ _ _ _ _ H eq_refl) as Hs2.
  apply gap_inv_more in H1; [|exact Hv|intros ->; cbn in Hs; lia].
  destruct H1 as (g1 & -> & -> & Hc1 & Hg1n & Hg1). pose proof (pos_app _ _ _ _ Hp) as Hp1.
  apply (label_name_inv _ _ Normal) in H2; [|auto|exact Hv0|exact Hp1].
  destruct H2 as (n & -> & -> & _ & Hn). pose proof (pos_app _ _ _ _ Hp1) as Hp2.
  apply gap_inv_more in H3; [|exact Hv1|intros ->; cbn in Hs2; lia].
  destruct H3 as (g2 & -> & -> & Hc2 & Hg2n & Hg2). pose proof (pos_app _ _ _ _ Hp2) as Hp3.
  apply label_value_inv in H; [|exact Hv2|exact Hp3]. destruct H as (v & -> & -> & _ & Hy).
  eexists (g1 ++ n ++ g2 ++ v), _. split; [rewrite <- !app_assoc; reflexivity|].
  split; [rewrite !app_length; lia|]. split; [reflexivity|]. split; [reflexivity|].
  unfold label_of. match goal with |- context [for_each ?f _ (None, None)] => change f with label_step end.
  cbn [t_children app].
  eapply yields_bind with (P := fun st => exists x y, label_name_at unq (p + length g1) n x /\
     label_value_at unq (p + length g1 + length n + length g2) v y /\ st = (Some x, Some y)).
  - rewrite for_each_gap by (assumption || apply label_step_comments).
    rewrite for_each_app. eapply yields_bind; [apply Hn|]. intros st (x & Hx & ->).
    rewrite for_each_gap by (assumption || apply label_step_comments).
    eapply yields_impl; [apply Hy|]. intros st (y & Hyy & ->). eauto.
  - intros st (x & y & Hx & Hyy & ->). cbn. eexists _, g1, n, _, g2, v. split; [reflexivity|]. repeat split; eauto.
    span_eq.
Qed.

Definition labels_step : list label -> tree -> outcome (list label) := fun labels field =>
  match t_rule field with
  | R_label_pair => x <- label_of unq src field;; Ok (labels ++ [x])
  | R_label_single => x <- label_of unq src field;; Ok (labels ++ [x])
  | R_comment => Ok labels
  | r => unexpected_token r
  end.

Lemma labels_step_comments : skips_comments labels_step.
Proof. intros l t H. unfold labels_step. rewrite H. reflexivity. Qed.

Lemma fold_snoc {A} (l acc : list A) : fold_left (fun a x => a ++ [x]) l acc = acc ++ l.
Proof.
  revert acc. induction l as [|x l IH]; intros acc; cbn [fold_left]; [rewrite app_nil_r; reflexivity|].
  rewrite IH, <- app_assoc. reflexivity.
Qed.

(** One or more gaps with an optional thing are a repetition that consumes something. *)
Lemma rep1_rep e p s q s' f : good (rep1 e) = true -> nullable e = false -> run ctx0 (rep1 e) p s = Done q s' f ->
  run ctx0 (Rep e) p s = Done q s' f /\ length s' < length s.
Proof.
  intros G Hn H. unfold rep1 in *. rewrite run_seq in H by exact G. rewrite run_rep by (apply (good_sub _ G)).
  destruct (run ctx0 e p s) as [q1 s1 f1| |] eqn:E; try discriminate. split; [exact H|].
  pose proof (run_strict _ _ _ _ _ _ _ E Hn). destruct (run ctx0 (Rep e) q1 s1) as [q2 s2 f2| |] eqn:E2; try discriminate.
  injection H as <- <- <-. destruct (run_consumes _ _ _ _ _ _ _ E2) as (w & -> & _). rewrite app_length in *. lia.
Qed.

Lemma label_inv p s q s' f : valid_utf8 s = true -> pos p s -> run ctx0 (Call R_label) p s = Done q s' f ->
  exists w t, s = w ++ s' /\ q = p + length w /\ f = [t] /\ t_rule t = R_label /\
    yields (label_at unq p w) (label_instruction_of unq src t).
Proof.
  intros Hv Hp H. apply token_inv in H; [|discriminate]. destruct H as (f' & H & ->).
  cbn [grammar fst snd rule_inner rule_outer] in H. seq_open H Hv H1.
  apply (keyword_inv "label") in H1; [|reflexivity]. destruct H1 as (kw & -> & -> & Hkw & ->).
  pose proof (pos_app _ _ _ _ Hp) as Hp1. unfold label_instruction_of.
  apply alt_inv in H; [|reflexivity]. destruct H as [H|[_ H]].
  - apply label_single_inv in H; [|exact Hv0|exact Hp1]. destruct H as (r & t & -> & -> & -> & Ht & Hy).
    eexists (kw ++ r), _. split; [rewrite <- app_assoc; reflexivity|]. split; [rewrite !app_length; lia|].
    split; [reflexivity|]. split; [reflexivity|]. cbn [t_children app for_each]. rewrite Ht.
    destruct (label_of unq src t) as [x|e| |]; cbn in *; try exact Hy.
    exists kw, r. split; [reflexivity|]. split; [exact Hkw|]. split; [span_eq|].
    left. exists x. auto.
  - apply rep1_rep in H; [|reflexivity|reflexivity]. destruct H as [H Hlt].
    apply (gap_spaced_inv unq src R_label_pair (label_pair_at unq) (label_of unq src) labels_step (fun a x => a ++ [x])) in H;
      [|reflexivity|reflexivity|reflexivity|apply label_pair_inv
       |intros l t Ht; unfold labels_step; rewrite Ht; reflexivity|apply labels_step_comments|exact Hv0|exact Hp1].
    destruct H as (w & -> & -> & pairs & g & -> & Hg & Hy).
    eexists (kw ++ pairs ++ g), _. split; [rewrite <- !app_assoc; reflexivity|]. split; [rewrite !app_length; lia|].
    split; [reflexivity|]. split; [reflexivity|].
    match goal with |- context [for_each ?f _ []] => change f with labels_step end. cbn [t_children app].
    eapply yields_bind; [apply Hy|]. intros st (l & Hl & ->). rewrite fold_snoc. cbn.
    exists kw, (pairs ++ g). split; [reflexivity|]. split; [exact Hkw|].
    split; [span_eq|]. right. exists pairs, g. repeat split; auto.
    intros E. rewrite E in Hlt. cbn in Hlt. lia.
Qed.

(** ** RUN, CMD, ENTRYPOINT *)

Lemma command_inv k r rx rs p s q s' f :
  grammar r = (Normal, Seq (Insens (bs k)) (Seq arg_ws (Alt (Call rx) (Call rs)))) ->
  good (Seq (Insens (bs k)) (Seq arg_ws (Alt (Call rx) (Call rs)))) = true ->
  ascii_expr (Insens (bs k)) = true -> to_lower (bs k) = bs k ->
  (k = "run"%string \/ k = "cmd"%string \/ k = "entrypoint"%string) ->
  grammar rx = (Normal, Call R_string_array) -> grammar rs = (AtomicRule, any_breakable) ->
  rx <> rs -> rx <> R_comment -> rs <> R_comment -> nullable (Alt (Call rx) (Call rs)) = false ->
  valid_utf8 s = true -> pos p s -> run ctx0 (Call r) p s = Done q s' f ->
  exists w t, s = w ++ s' /\ q = p + length w /\ f = [t] /\ t_rule t = r /\ span_of t = at_ p w /\
    yields (fun e => command_at unq k p w (at_ p w) e) (shell_or_exec_of unq src rx rs t).
Proof.
  intros Hr G Ha Hlow Hk Hrx Hrs Hne1 Hne2 Hne3 Hnull Hv Hp H.
  apply token_inv in H; [|rewrite Hr; discriminate]. destruct H as (f' & H & ->).
  rewrite Hr in H. cbn [fst snd rule_inner rule_outer] in H.
  apply seq_inv in H; [|exact G]. destruct H as (q1 & s1 & f1 & f2 & H1 & H & ->).
  pose proof (run_valid _ _ _ _ _ _ _ H1 Hv Ha) as Hv1.
  apply (keyword_inv k) in H1; [|exact Hlow]. destruct H1 as (kw & -> & -> & Hkw & ->).
  pose proof (pos_app _ _ _ _ Hp) as Hp1.
  apply seq_inv in H; [|apply (good_sub _ G)]. destruct H as (q2 & s2 & f3 & f4 & H1 & H & ->).
  pose proof (run_valid _ _ _ _ _ _ _ H1 Hv1 eq_refl) as Hv2.
  pose proof (run_strict _ _ _ _ _ _ _ H Hnull) as Hs.
  apply gap_inv_more in H1; [|exact Hv1|intros ->; cbn in Hs; lia].
  destruct H1 as (g & -> & -> & Hc & Hgn & Hg). pose proof (pos_app _ _ _ _ Hp1) as Hp2.
  assert (K : exists w t, s2 = w ++ s' /\ q = p + length kw + length g + length w /\ f4 = [t] /\
    yields (fun e => shell_or_exec_at unq (p + length kw + length g) w e)
      (if rule_eq_dec (t_rule t) rx then a <- parse_string_array unq src t;; Ok (Exec a)
       else if rule_eq_dec (t_rule t) rs then s <- parse_any_breakable src t;; Ok (Shell s)
       else unexpected_token (t_rule t))).
  { apply alt_inv in H; [|apply (good_sub _ (proj2 (good_sub _ G)))]. destruct H as [H|[_ H]].
    - apply (array_rule_inv unq src) in H; [|exact Hrx|exact Hv2|exact Hp2].
      destruct H as (w & t & -> & -> & -> & Ht & Hy). exists w, t. repeat split.
      destruct (rule_eq_dec (t_rule t) rx) as [_|K]; [|contradiction].
      eapply yields_bind; [exact Hy|]. intros a Ha2. exact Ha2.
    - apply (breakable_rule_inv src) in H; [|exact Hrs|exact Hv2|exact Hp2].
      destruct H as (w & t & x & -> & -> & -> & Ht & Hy & Hx). exists w, t. repeat split.
      destruct (rule_eq_dec (t_rule t) rx) as [K|_]; [congruence|].
      destruct (rule_eq_dec (t_rule t) rs) as [_|K]; [|contradiction]. rewrite Hy. exact Hx. }
  destruct K as (w & t & -> & -> & -> & Hy).
  eexists (kw ++ g ++ w), _. split; [rewrite <- !app_assoc; reflexivity|].
  assert (El : p + length kw + length g + length w = p + length (kw ++ g ++ w)) by (rewrite !app_length; lia).
  rewrite El. split; [reflexivity|]. split; [reflexivity|]. split; [reflexivity|]. split; [reflexivity|].
  unfold shell_or_exec_of. cbn [t_children app]. destruct f3 as [|c0 f3].
  - cbn [app]. eapply yields_impl; [exact Hy|]. intros e He. exists kw, g, w. repeat split; auto.
  - cbn [app]. inversion Hc as [|? ? Hc0 _]. subst.
    destruct (rule_eq_dec (t_rule c0) rx) as [K|_]; [congruence|].
    destruct (rule_eq_dec (t_rule c0) rs) as [K|_]; [congruence|]. rewrite Hc0. cbn.
    apply (cause_comment unq src (kw ++ g)).
    + eapply pos_found. rewrite <- app_assoc. exact Hp.
    + exists kw, (length f3), g. split; [reflexivity|]. split; [|exact Hg].
      destruct Hk as [->|[->| ->]]; auto.
Qed.

(** ** COPY *)

Notation copy_state := (list flag * list spanned_string)%type (only parsing).
Definition copy_step : copy_state -> tree -> outcome copy_state := fun '(flags, paths) field =>
  match t_rule field with
  | R_copy_flag => x <- copy_flag_of unq src field;; Ok (flags ++ [x], paths)
  | R_copy_pathspec => x <- parse_string unq src field;; Ok (flags, paths ++ [x])
  | R_comment => Ok (flags, paths)
  | r => unexpected_token r
  end.

Lemma copy_step_comments : skips_comments copy_step.
Proof. intros [a b] t H. unfold copy_step. rewrite H. reflexivity. Qed.

Definition add_copy_flag : copy_state -> flag -> copy_state := fun '(flags, paths) x => (flags ++ [x], paths).
Definition add_path : copy_state -> spanned_string -> copy_state := fun '(flags, paths) x => (flags, paths ++ [x]).

Lemma fold_copy_flag l a b : fold_left add_copy_flag l (a, b) = (a ++ l, b).
Proof.
  revert a. induction l as [|x l IH]; intros a; cbn [fold_left add_copy_flag]; [rewrite app_nil_r; reflexivity|].
  rewrite IH, <- app_assoc. reflexivity.
Qed.
Lemma fold_add_path l a b : fold_left add_path l (a, b) = (a, b ++ l).
Proof.
  revert b. induction l as [|x l IH]; intros b; cbn [fold_left add_path]; [rewrite app_nil_r; reflexivity|].
  rewrite IH, <- app_assoc. reflexivity.
Qed.

Lemma path_inv p s q s' f : valid_utf8 s = true -> pos p s -> run ctx0 (Call R_copy_pathspec) p s = Done q s' f ->
  exists w t, s = w ++ s' /\ q = p + length w /\ f = [t] /\ t_rule t = R_copy_pathspec /\
    yields (path_at unq p w) (parse_string unq src t).
Proof.
  intros Hv Hp H. apply (word_rule_inv _ AtomicRule) in H; [|reflexivity|discriminate|exact Hv].
  destruct H as (w & ch & -> & -> & Hw & ->). eexists w, _. split; [reflexivity|]. split; [reflexivity|].
  split; [reflexivity|]. split; [reflexivity|].
  eapply yields_impl; [eapply parse_string_at; exact Hp|]. intros x Hx. split; assumption.
Qed.

Lemma pop_snoc {A} (l : list A) x : pop (l ++ [x]) = Some (l, x).
Proof. induction l as [|y l IH]; [reflexivity|]. cbn [app pop]. rewrite IH. reflexivity. Qed.

Lemma copy_inv p s q s' f : valid_utf8 s = true -> pos p s -> run ctx0 (Call R_copy) p s = Done q s' f ->
  exists w t, s = w ++ s' /\ q = p + length w /\ f = [t] /\ t_rule t = R_copy /\
    yields (copy_at unq p w) (copy_of unq src t).
Proof.
  intros Hv Hp H. apply token_inv in H; [|discriminate]. destruct H as (f' & H & ->).
  cbn [grammar fst snd rule_inner rule_outer] in H.
  seq_open H Hv H1. seq_open H Hv0 H2. seq_open H Hv1 H3. seq_open H Hv2 H4.
  apply (keyword_inv "copy") in H1; [|reflexivity]. destruct H1 as (kw & -> & -> & Hkw & ->).
  pose proof (pos_app _ _ _ _ Hp) as Hp1.
  apply (spaced_inv unq src R_copy_flag (flag_at unq) (copy_flag_of unq src) copy_step add_copy_flag) in H2;
    [|reflexivity|reflexivity|reflexivity|apply copy_flag_inv
     |intros [a b] t Ht; unfold copy_step; rewrite Ht; reflexivity|apply copy_step_comments|exact Hv0|exact Hp1].
  destruct H2 as (fl & -> & -> & Hfl). pose proof (pos_app _ _ _ _ Hp1) as Hp2.
  apply (spaced_one_inv unq src R_copy_pathspec (path_at unq) (parse_string unq src) copy_step add_path) in H3;
    [|reflexivity|reflexivity|apply path_inv
     |intros [a b] t Ht; unfold copy_step; rewrite Ht; reflexivity|apply copy_step_comments|exact Hv1|exact Hp2].
  destruct H3 as (k1 & g1 & w1 & -> & -> & Hg1 & Hg1n & Hy1). pose proof (pos_app _ _ _ _ Hp2) as Hp3.
  apply (spaced_one_inv unq src R_copy_pathspec (path_at unq) (parse_string unq src) copy_step add_path) in H4;
    [|reflexivity|reflexivity|apply path_inv
     |intros [a b] t Ht; unfold copy_step; rewrite Ht; reflexivity|apply copy_step_comments|exact Hv2|exact Hp3].
  destruct H4 as (k2 & g2 & w2 & -> & -> & Hg2 & Hg2n & Hy2). pose proof (pos_app _ _ _ _ Hp3) as Hp4.
  apply (spaced_inv unq src R_copy_pathspec (path_at unq) (parse_string unq src) copy_step add_path) in H;
    [|reflexivity|reflexivity|reflexivity|apply path_inv
     |intros [a b] t Ht; unfold copy_step; rewrite Ht; reflexivity|apply copy_step_comments|exact Hv3|exact Hp4].
  destruct H as (more & -> & -> & Hm).
  eexists (kw ++ fl ++ (g1 ++ w1) ++ (g2 ++ w2) ++ more), _.
  split; [rewrite <- !app_assoc; reflexivity|]. split; [rewrite !app_length; lia|].
  split; [reflexivity|]. split; [reflexivity|]. unfold copy_of.
  match goal with |- context [for_each ?f _ ([], [])] => change f with copy_step end.
  eapply yields_bind with (P := fun st => exists l x1 x2 l2, spaced (flag_at unq) (p + length kw) fl l /\
     path_at unq (p + length kw + length fl + length g1) w1 x1 /\
     path_at unq (p + length kw + length fl + length (g1 ++ w1) + length g2) w2 x2 /\
     spaced (path_at unq) (p + length kw + length fl + length (g1 ++ w1) + length (g2 ++ w2)) more l2 /\
     st = (l, x1 :: x2 :: l2)).
  - cbn [t_children app]. rewrite for_each_app. eapply yields_bind; [apply Hfl|]. intros st (l & Hl & ->).
    rewrite fold_copy_flag. cbn [app]. rewrite for_each_app. eapply yields_bind; [apply Hy1|].
    intros st (x1 & Hx1 & ->). rewrite for_each_app. eapply yields_bind; [apply Hy2|].
    intros st (x2 & Hx2 & ->). cbn [add_path app]. eapply yields_impl; [apply Hm|].
    intros st (l2 & Hl2 & ->). rewrite fold_add_path. exists l, x1, x2, l2. auto 6.
  - intros st (l & x1 & x2 & l2 & Hl & Hx1 & Hx2 & Hl2 & ->). cbn beta iota.
    change (length (x1 :: x2 :: l2) <? 2) with false. cbn iota.
    destruct (exists_last (l := x1 :: x2 :: l2) ltac:(discriminate)) as (srcs & dest & E). rewrite E, pop_snoc.
    assert (Hsrc : srcs <> []) by (intros ->; discriminate).
    cbn. exists kw, fl, ((g1 ++ w1) ++ (g2 ++ w2) ++ more). split; [reflexivity|]. split; [exact Hkw|].
    split; [exact Hl|]. split.
    { cbn. rewrite <- E. rewrite <- !app_assoc. eapply spaced_one; eauto.
      rewrite app_length in Hx2, Hl2. rewrite app_length in Hl2. eapply spaced_one; eauto.
      - replace_pos Hx2.
      - replace_pos Hl2. }
    split; [exact Hsrc|]. span_eq.
Qed.

(** ** ENV *)

Notation env_state := (option spanned_string * option breakable_string)%type (only parsing).
Definition pair_step : env_state -> tree -> outcome env_state := fun '(key, value) field =>
  match t_rule field with
  | R_env_name => x <- parse_string unq src field;; Ok (Some x, value)
  | R_env_pair_value => Ok (key, Some (breakable_of_field field (as_str src field)))
  | R_env_pair_quoted_value =>
    v <- unquote unq (as_str src field);; Ok (key, Some (breakable_of_field field v))
  | r => unexpected_token r
  end.
Definition single_step : env_state -> tree -> outcome env_state := fun '(key, value) field =>
  match t_rule field with
  | R_env_name => x <- parse_string unq src field;; Ok (Some x, value)
  | R_env_single_value => x <- parse_any_breakable src field;; Ok (key, Some x)
  | R_env_single_quoted_value =>
    v <- unquote unq (as_str src field);; Ok (key, Some (breakable_of_field field v))
  | R_comment => Ok (key, value)
  | r => unexpected_token r
  end.

Lemma single_step_comments : skips_comments single_step.
Proof. intros [a b] t H. unfold single_step. rewrite H. reflexivity. Qed.

Lemma env_name_inv c p s q s' f : look c = false -> run c (Call R_env_name) p s = Done q s' f ->
  exists w ch, s = w ++ s' /\ q = p + length w /\ env_name_text w /\ f = [Node R_env_name p q ch].
Proof.
  intros Hc H. apply compound_inv in H; [|reflexivity|exact Hc]. destruct H as (f' & H & ->).
  cbn [grammar fst snd] in H. apply (class_rep1_inv _ is_word) in H; [|reflexivity|apply class_word].
  destruct H as (w & -> & -> & Hne & Hw & -> & _). exists w, []. repeat split; auto.
Qed.

Lemma quoted_breakable_at r p w s ch : pos p (w ++ s) -> quoted_text w ->
  yields (quoted_value_at unq p w)
    (v <- unquote unq (as_str src (Node r p (p + length w) ch));;
     Ok (breakable_of_field (Node r p (p + length w) ch) v)).
Proof.
  intros Hp Hq. rewrite (as_str_at src _ _ _ _ _ Hp). unfold unquote. destruct (unq w) as [v|] eqn:E; cbn.
  - exists v. split; [exact Hq|]. split; [exact E|reflexivity].
  - apply (cause_escape unq src w); [apply (pos_found _ _ _ _ Hp)|]. split; [apply quoted_begins; exact Hq|].
    exists w. auto.
Qed.

(** The alternative for quoted values is tried first. *)
Lemma not_quoted_ahead r c p w s : grammar r = (CompoundRule, string_) -> look c = false -> valid_utf8 (w ++ s) = true ->
  run c (Call r) p (w ++ s) = Fail -> ~ quoted_ahead w.
Proof.
  intros Hr Hc Hv HF (q & t & -> & Hq). rewrite <- app_assoc in *. rewrite run_call, Hr in HF. cbn [fst snd] in HF.
  destruct (string_fwd (rule_inner CompoundRule c) p q (t ++ s) Hc Hq Hv) as (ch & E). rewrite E in HF. discriminate.
Qed.

Lemma env_pair_inv p s q s' f : valid_utf8 s = true -> pos p s -> run ctx0 (Call R_env_pair) p s = Done q s' f ->
  exists w t, s = w ++ s' /\ q = p + length w /\ f = [t] /\ t_rule t = R_env_pair /\
    yields (env_pair_at unq p w) (env_pair_of unq src t).
Proof.
  intros Hv Hp H. apply token_inv in H; [|discriminate]. destruct H as (f' & H & ->).
  cbn [grammar fst snd rule_inner rule_outer] in H. seq_open H Hv H1. seq_open H Hv0 H2.
  apply env_name_inv in H1; [|reflexivity]. destruct H1 as (n & c1 & -> & -> & Hn & ->).
  pose proof (pos_app _ _ _ _ Hp) as Hp1. apply str_inv in H2. destruct H2 as (-> & -> & ->). cbn [length] in *.
  pose proof (pos_app _ _ [EQUALS] _ Hp1) as Hp2. cbn [length] in Hp2.
  assert (En : forall v, pair_step (None, v) (Node R_env_name p (p + length n) c1) =
     Ok (Some (SpannedString (at_ p n) n), v)).
  { intros v. cbn [pair_step t_rule]. rewrite (parse_string_plain unq src _ _ _ _ _ Hp); [reflexivity|].
    apply word_class_not_quoted. apply Hn. }
  unfold env_pair_of. apply alt_inv in H; [|reflexivity]. destruct H as [H|[HF H]].
  - apply compound_inv in H; [|reflexivity|reflexivity]. destruct H as (fq & H & ->). cbn [grammar snd] in H.
    apply string_inv in H; [|exact Hv1|reflexivity]. destruct H as (v & ch & -> & -> & Hq & ->).
    eexists (n ++ EQUALS :: v), _. split; [rewrite <- !app_assoc; reflexivity|].
    split; [rewrite app_length; cbn [length]; lia|]. split; [reflexivity|]. split; [reflexivity|].
    match goal with |- context [for_each ?f _ (None, None)] => change f with pair_step end.
    cbn [t_children app for_each]. rewrite En. cbn [bind].
    pose proof (quoted_breakable_at R_env_pair_quoted_value _ _ _ [Node R_string (p + length n + 1) (p + length n + 1 + length v) ch] Hp2 Hq) as Hy.
    cbn [pair_step t_rule].
    match type of Hy with Sound.yields _ _ _ (bind ?o _) => destruct o as [u|e| |] end; cbn [bind ok_or] in *; try exact Hy.
    cbn. exists n, v. split; [reflexivity|]. split; [exact Hn|]. split; [reflexivity|]. split; [left; exact Hy|].
    span_eq.
  - apply compound_inv in H; [|reflexivity|reflexivity]. destruct H as (fq & H & ->). cbn [grammar snd] in H.
    apply any_whitespace_inv in H; [|exact Hv1]. destruct H as (v & -> & -> & Hw & ->).
    eexists (n ++ EQUALS :: v), _. split; [rewrite <- !app_assoc; reflexivity|].
    split; [rewrite app_length; cbn [length]; lia|]. split; [reflexivity|]. split; [reflexivity|].
    match goal with |- context [for_each ?f _ (None, None)] => change f with pair_step end.
    cbn [t_children app for_each]. rewrite En. cbn [bind pair_step t_rule ok_or].
    rewrite (as_str_at src _ _ _ _ _ Hp2). cbn. exists n, v. split; [reflexivity|]. split; [exact Hn|].
    split; [reflexivity|]. split; [|span_eq].
    right. split; [exact Hw|]. split; [|reflexivity]. exact (not_quoted_ahead R_env_pair_quoted_value _ _ _ _ eq_refl (eq_refl : look {| atom := true; look := look ctx0 |} = false) Hv1 HF).
Qed.

Definition pairs_step : list env_var -> tree -> outcome (list env_var) := fun vars field =>
  match t_rule field with
  | R_env_pair => x <- env_pair_of unq src field;; Ok (vars ++ [x])
  | R_comment => Ok vars
  | r => unexpected_token r
  end.

Lemma pairs_step_comments : skips_comments pairs_step.
Proof. intros l t H. unfold pairs_step. rewrite H. reflexivity. Qed.

Lemma env_value_inv p4 s q s' f : valid_utf8 s = true -> pos p4 s ->
  run ctx0 (Alt (Call R_env_single_quoted_value) (Call R_env_single_value)) p4 s = Done q s' f ->
  exists v t, s = v ++ s' /\ q = p4 + length v /\ f = [t] /\
    forall key, yields (fun st => exists x, (quoted_value_at unq p4 v x \/ (~ quoted_ahead v /\ breakable_at p4 v x)) /\ br_span x = at_ p4 v /\ st = (key, Some x))
        (single_step (key, None) t).
Proof.
  intros Hv3 Hp4 H. apply alt_inv in H; [|reflexivity]. destruct H as [H|[HF H]].
  - apply (quoted_rule_token_inv _ CompoundRule) in H; [|reflexivity|discriminate|discriminate|exact Hv3].
    destruct H as (v & ch & -> & -> & Hq & ->). eexists v, _. split; [reflexivity|]. split; [reflexivity|].
    split; [reflexivity|]. intros key. cbn [single_step t_rule].
    pose proof (quoted_breakable_at R_env_single_quoted_value _ _ _ ch Hp4 Hq) as Hy.
    match type of Hy with Sound.yields _ _ _ (bind ?o _) => destruct o as [u|e| |] end; cbn [bind ok_or] in *; try exact Hy.
    cbn. eexists. split; [left; exact Hy|]. split; reflexivity.
  - apply (breakable_rule_inv src) in H; [|reflexivity|exact Hv3|exact Hp4].
    destruct H as (v & t & x & -> & -> & -> & Ht & Hy & Hx). exists v, t. split; [reflexivity|].
    split; [reflexivity|]. split; [reflexivity|]. intros key. unfold single_step. rewrite Ht, Hy. cbn.
    exists x. split; [right; split; [exact (not_quoted_ahead R_env_single_quoted_value ctx0 _ _ _ eq_refl eq_refl Hv3 HF)|exact Hx]|]. split; [destruct Hx as (? & _ & ->); reflexivity|reflexivity].
Qed.

Lemma env_inv p s q s' f : valid_utf8 s = true -> pos p s -> run ctx0 (Call R_env) p s = Done q s' f ->
  exists w t, s = w ++ s' /\ q = p + length w /\ f = [t] /\ t_rule t = R_env /\
    yields (env_at unq p w) (env_of unq src t).
Proof.
  intros Hv Hp H. apply token_inv in H; [|discriminate]. destruct H as (f' & H & ->).
  cbn [grammar fst snd rule_inner rule_outer] in H. seq_open H Hv H1.
  apply (keyword_inv "env") in H1; [|reflexivity]. destruct H1 as (kw & -> & -> & Hkw & ->).
  pose proof (pos_app _ _ _ _ Hp) as Hp1.
  apply alt_inv in H; [|reflexivity]. destruct H as [H|[_ H]].
  - apply token_inv in H; [|discriminate]. destruct H as (fs & H & ->).
    cbn [grammar fst snd rule_inner rule_outer] in H. seq_open H Hv0 H1. seq_open H Hv1 H2. seq_open H Hv2 H3.
    pose proof (run_strict _ _ _ _ _ _ _ H2 eq_refl) as Hs. pose proof (run_strict _ _ _ _ _ _ _ H eq_refl) as Hs2.
    apply gap_inv_more in H1; [|exact Hv0|intros ->; cbn in Hs; lia].
    destruct H1 as (g1 & -> & -> & Hc1 & Hg1n & Hg1). pose proof (pos_app _ _ _ _ Hp1) as Hp2.
    apply env_name_inv in H2; [|reflexivity]. destruct H2 as (n & c1 & -> & -> & Hn & ->).
    pose proof (pos_app _ _ _ _ Hp2) as Hp3.
    apply gap_inv_more in H3; [|exact Hv2|intros ->; cbn in Hs2; lia].
    destruct H3 as (g2 & -> & -> & Hc2 & Hg2n & Hg2). pose proof (pos_app _ _ _ _ Hp3) as Hp4.
    assert (En : forall v, single_step (None, v) (Node R_env_name (p + length kw + length g1) (p + length kw + length g1 + length n) c1) =
       Ok (Some (SpannedString (at_ (p + length kw + length g1) n) n), v)).
    { intros v. cbn [single_step t_rule]. rewrite (parse_string_plain unq src _ _ _ _ _ Hp2); [reflexivity|].
      apply word_class_not_quoted. apply Hn. }
    set (p4 := p + length kw + length g1 + length n + length g2) in *.
    apply env_value_inv in H; [|exact Hv3|exact Hp4].
    destruct H as (v & t & -> & -> & -> & Hy).
    eexists (kw ++ g1 ++ n ++ g2 ++ v), _. split; [rewrite <- !app_assoc; reflexivity|].
    split; [unfold p4; rewrite !app_length; lia|]. split; [reflexivity|]. split; [reflexivity|].
    unfold env_of. cbn [t_children app t_rule]. unfold env_single_of.
    match goal with |- context [for_each ?f _ (None, None)] => change f with single_step end.
    eapply yields_bind with (P := fun st => exists x, (quoted_value_at unq p4 v x \/ (~ quoted_ahead v /\ breakable_at p4 v x)) /\ br_span x = at_ p4 v /\
      st = (Some (SpannedString (at_ (p + length kw + length g1) n) n), Some x)).
    + cbn [t_children app]. rewrite for_each_gap by (assumption || apply single_step_comments).
      cbn [for_each]. rewrite En. cbn [bind]. rewrite for_each_gap by (assumption || apply single_step_comments).
      cbn [for_each]. eapply yields_bind; [apply Hy|]. intros st Hst. exact Hst.
    + intros st (x & Hx & Hsp & ->). cbn. exists kw, (g1 ++ n ++ g2 ++ v). split; [reflexivity|]. split; [exact Hkw|].
      split. { unfold p4. span_eq. }
      left. eexists. split; [|reflexivity]. eexists _, g1, n, _, g2, v. repeat split; eauto; try apply Hn.
      cbn. rewrite Hsp. unfold at_, p4. cbn. rewrite !app_length. f_equal; lia.
  - apply token_inv in H; [|discriminate]. destruct H as (fs & H & ->).
    cbn [grammar fst snd rule_inner rule_outer] in H.
    apply rep1_rep in H; [|reflexivity|reflexivity]. destruct H as [H Hlt].
    apply (gap_spaced_inv unq src R_env_pair (env_pair_at unq) (env_pair_of unq src) pairs_step (fun a x => a ++ [x])) in H;
      [|reflexivity|reflexivity|reflexivity|apply env_pair_inv
       |intros l t Ht; unfold pairs_step; rewrite Ht; reflexivity|apply pairs_step_comments|exact Hv0|exact Hp1].
    destruct H as (w & -> & -> & pairs & g & -> & Hg & Hy).
    eexists (kw ++ pairs ++ g), _. split; [rewrite <- !app_assoc; reflexivity|]. split; [rewrite !app_length; lia|].
    split; [reflexivity|]. split; [reflexivity|]. unfold env_of. cbn [t_children app t_rule]. unfold env_pairs_of.
    match goal with |- context [for_each ?f _ []] => change f with pairs_step end. cbn [t_children].
    eapply yields_bind; [apply Hy|]. intros st (l & Hl & ->). rewrite fold_snoc. cbn.
    exists kw, (pairs ++ g). split; [reflexivity|]. split; [exact Hkw|].
    split; [span_eq|]. right. exists pairs, g. repeat split; auto.
    intros E. rewrite E in Hlt. cbn in Hlt. lia.
Qed.

(** ** Others *)

Lemma misc_inv p s q s' f : valid_utf8 s = true -> pos p s -> run ctx0 (Call R_misc) p s = Done q s' f ->
  exists w t, s = w ++ s' /\ q = p + length w /\ f = [t] /\ t_rule t = R_misc /\
    yields (misc_at p w) (misc_of unq src t).
Proof.
  intros Hv Hp H. apply token_inv in H; [|discriminate]. destruct H as (f' & H & ->).
  cbn [grammar fst snd rule_inner rule_outer] in H. seq_open H Hv H1.
  apply letters_rule_inv in H1; [|reflexivity]. destruct H1 as (name & c1 & -> & -> & Hn & -> & Hnext).
  pose proof (pos_app _ _ _ _ Hp) as Hp1.
  apply (breakable_rule_inv src) in H; [|reflexivity|exact Hv0|exact Hp1].
  destruct H as (w & t & x & -> & -> & -> & Ht & Hy & Hx).
  eexists (name ++ w), _. split; [rewrite <- app_assoc; reflexivity|]. split; [rewrite !app_length; lia|].
  split; [reflexivity|]. split; [reflexivity|]. unfold misc_of. cbn [t_children app for_each t_rule].
  rewrite (parse_string_plain unq src _ _ _ _ _ Hp) by (apply letters_not_quoted; exact Hn).
  cbn [bind]. rewrite Ht, Hy. cbn. exists name, w. repeat split; auto; try apply Hn.
  - destruct w as [|c w]; [exact I|exact Hnext].
  - span_eq.
Qed.

(** ** Any instruction *)

Lemma step_inv p s q s' f : valid_utf8 s = true -> pos p s -> run ctx0 (Call R_step) p s = Done q s' f ->
  exists w t, s = w ++ s' /\ q = p + length w /\ f = [t] /\ t_rule t <> R_EOI /\ t_rule t <> R_comment /\
    yields (fun i => instruction_at unq p w i) (instruction_of unq src t).
Proof.
  intros Hv Hp H. call_open H. cbn [grammar fst snd rule_inner rule_outer rule_tokens] in *.
  apply alt_inv in H; [|reflexivity]. destruct H as [H|[_ H]].
  { apply from_inv in H; [|exact Hv|exact Hp]. destruct H as (w & t & -> & -> & -> & Ht & Hy).
    exists w, t. repeat split; try congruence. unfold instruction_of. rewrite Ht.
    eapply yields_bind; [apply Hy|]. intros i Hi. exact Hi. }
  apply alt_inv in H; [|reflexivity]. destruct H as [H|[_ H]].
  { apply (command_inv "run" _ R_run_exec R_run_shell) in H; try reflexivity; try discriminate; auto.
    destruct H as (w & t & -> & -> & -> & Ht & Hsp & Hy).
    exists w, t. repeat split; try congruence. unfold instruction_of, run_of. rewrite Ht, Hsp.
    eapply yields_bind with (P := fun i => exists e, command_at unq "run" p w (at_ p w) e /\ i = RunInstruction (at_ p w) e).
    - eapply yields_bind; [apply Hy|]. intros e He. exists e. auto.
    - intros i (e & He & ->). exact He. }
  apply alt_inv in H; [|reflexivity]. destruct H as [H|[_ H]].
  { apply arg_inv in H; [|exact Hv|exact Hp]. destruct H as (w & t & -> & -> & -> & Ht & Hy).
    exists w, t. repeat split; try congruence. unfold instruction_of. rewrite Ht.
    eapply yields_bind; [apply Hy|]. intros i Hi. exact Hi. }
  apply alt_inv in H; [|reflexivity]. destruct H as [H|[_ H]].
  { apply label_inv in H; [|exact Hv|exact Hp]. destruct H as (w & t & -> & -> & -> & Ht & Hy).
    exists w, t. repeat split; try congruence. unfold instruction_of. rewrite Ht.
    eapply yields_bind; [apply Hy|]. intros i Hi. exact Hi. }
  apply alt_inv in H; [|reflexivity]. destruct H as [H|[_ H]].
  { apply copy_inv in H; [|exact Hv|exact Hp]. destruct H as (w & t & -> & -> & -> & Ht & Hy).
    exists w, t. repeat split; try congruence. unfold instruction_of. rewrite Ht.
    eapply yields_bind; [apply Hy|]. intros i Hi. exact Hi. }
  apply alt_inv in H; [|reflexivity]. destruct H as [H|[_ H]].
  { apply (command_inv "entrypoint" _ R_entrypoint_exec R_entrypoint_shell) in H; try reflexivity; try discriminate; auto.
    destruct H as (w & t & -> & -> & -> & Ht & Hsp & Hy).
    exists w, t. repeat split; try congruence. unfold instruction_of, entrypoint_of. rewrite Ht, Hsp.
    eapply yields_bind with (P := fun i => exists e, command_at unq "entrypoint" p w (at_ p w) e /\ i = EntrypointInstruction (at_ p w) e).
    - eapply yields_bind; [apply Hy|]. intros e He. exists e. auto.
    - intros i (e & He & ->). exact He. }
  apply alt_inv in H; [|reflexivity]. destruct H as [H|[_ H]].
  { apply (command_inv "cmd" _ R_cmd_exec R_cmd_shell) in H; try reflexivity; try discriminate; auto.
    destruct H as (w & t & -> & -> & -> & Ht & Hsp & Hy).
    exists w, t. repeat split; try congruence. unfold instruction_of, cmd_of. rewrite Ht, Hsp.
    eapply yields_bind with (P := fun i => exists e, command_at unq "cmd" p w (at_ p w) e /\ i = CmdInstruction (at_ p w) e).
    - eapply yields_bind; [apply Hy|]. intros e He. exists e. auto.
    - intros i (e & He & ->). exact He. }
  apply alt_inv in H; [|reflexivity]. destruct H as [H|[_ H]].
  { apply env_inv in H; [|exact Hv|exact Hp]. destruct H as (w & t & -> & -> & -> & Ht & Hy).
    exists w, t. repeat split; try congruence. unfold instruction_of. rewrite Ht.
    eapply yields_bind; [apply Hy|]. intros i Hi. exact Hi. }
  { apply misc_inv in H; [|exact Hv|exact Hp]. destruct H as (w & t & -> & -> & -> & Ht & Hy).
    exists w, t. repeat split; try congruence. unfold instruction_of. rewrite Ht.
    eapply yields_bind; [apply Hy|]. intros i Hi. exact Hi. }
Qed.

End Instr.
