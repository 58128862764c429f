(** Parsing a document in which the alias of a FROM was replaced by another. *)

From Coq Require Import String.
From Verif Require Import Bytes BytesFacts Grammar Peg PegFacts Result Ast Splicer Image Convert Dockerfile SpecImage SpecSyntax SpecParts
  SpecSplice SplicerFacts SpecMove SpecReword SpecAlias SpecClear SpecExact PegRules PegTokens PegQuoted Sound SoundInstr SoundRules SoundDoc Shift ConvertMove Once ConvertSame Spelt Oracle ParseFacts
  Swap SwapParse SwapDoc DocFacts SelectFacts PropsParse PropsDoc ConvertReword RewordDoc RewordFacts.
From Verif Require Forward3 EqSwap.
From Verif Require Import PropsEdit ArgumentDoc.
Local Open Scope string_scope.
Local Open Scope list_scope.
Local Open Scope nat_scope.

Lemma flags_not_alias p s q s' f : valid_utf8 s = true -> run ctx0 (Rep (Seq arg_ws (Call R_from_flag))) p s = Done q s' f ->
  Forall (fun t => t_rule t <> R_from_alias) f.
Proof.
  intros Hv H. destruct (rep_ind ctx0 (Seq arg_ws (Call R_from_flag)) (fun p w f s' => valid_utf8 (w ++ s') = true ->
    Forall (fun t => t_rule t <> R_from_alias) f) eq_refl) with (3 := H) as (w & -> & -> & K).
  - intros. constructor.
  - clear. intros p w1 s1 f1 w2 f2 s' H -> Hne IH Hv. rewrite <- app_assoc in Hv.
    specialize (IH (run_valid _ _ _ _ _ _ _ H Hv eq_refl)). apply Forall_app. split; [|exact IH].
    seq_open H Hv H1. apply gap_inv in H1; [|exact Hv]. destruct H1 as (w & _ & _ & Hc & _).
    apply Forall_app. split; [apply comments_not; [exact Hc|discriminate]|].
    apply token_inv in H; [|discriminate]. destruct H as (f' & _ & ->). constructor; [discriminate|constructor].
  - apply K. exact Hv.
Qed.

Lemma alias_image_char c : alias_char c = true -> image_char c = true.
Proof.
  unfold alias_char. rewrite !orb_true_iff, !N.eqb_eq. intros [[E| ->]| ->]; [|reflexivity|reflexivity].
  unfold image_char. rewrite E. reflexivity.
Qed.

Lemma alias_image w : alias_text w -> image_text w.
Proof. intros [H1 H2]. split; [exact H1|]. eapply Forall_impl; [|exact H2]. exact alias_image_char. Qed.

Lemma alias_tokens p s q s' f : valid_utf8 s = true -> run ctx0 (Call R_from) p s = Done q s' f ->
  (exists c, f = [Node R_from p q c] /\ Forall (fun t => t_rule t <> R_from_alias) c) \/
  exists K X c1, s = K ++ X ++ s' /\ alias_text X /\ valid_utf8 K = true /\ valid_utf8 s' = true /\
    (exists k0 K1 z, K = k0 :: K1 ++ [z] /\ lower_byte k0 = 102%N /\ is_break z = true) /\
    (forall P, p = length P -> alias_head P K X s') /\
    f = [Node R_from p q (c1 ++ [Node R_from_alias (p + length K) (p + length K + length X) []])] /\
    Forall (tree_within p (p + length K)) c1 /\ p + length K + length X = q.
Proof.
  intros Hv H. apply token_inv in H; [|discriminate]. destruct H as (f' & H & ->).
  cbn [grammar fst snd rule_inner rule_outer] in H. change (rule_outer Normal ctx0) with ctx0 in H.
  pose proof (run_ordered _ _ _ _ _ _ _ H) as Ho.
  apply seq_inv in H; [|reflexivity]. destruct H as (p1 & s1 & f1 & f2 & R1 & H & ->).
  apply seq_inv in H; [|reflexivity]. destruct H as (p2 & s2 & f3 & f4 & R2 & H & ->).
  apply seq_inv in H; [|reflexivity]. destruct H as (p3 & s3 & f5 & f6 & R3 & H & ->).
  apply seq_inv in H; [|reflexivity]. destruct H as (p4 & s4 & f7 & f8 & R4 & R5 & ->).
  pose proof (run_valid _ _ _ _ _ _ _ R1 Hv eq_refl) as V1.
  pose proof (run_valid _ _ _ _ _ _ _ R2 V1 eq_refl) as V2.
  pose proof (run_valid _ _ _ _ _ _ _ R3 V2 eq_refl) as V3.
  pose proof (run_valid _ _ _ _ _ _ _ R4 V3 eq_refl) as V4.
  assert (Hk : exists kw, s = kw ++ s1 /\ p1 = p + length kw /\ keyword "from" kw /\ f1 = []).
  { pose proof R1 as K. apply (keyword_inv "from") in K; [|reflexivity]. exact K. }
  destruct Hk as (kw & -> & -> & Hkw & ->). cbn [app] in *.
  assert (N2 : Forall (fun t => t_rule t <> R_from_alias) f3).
  { exact (flags_not_alias _ _ _ _ _ V1 R2). }
  assert (N3 : Forall (fun t => t_rule t <> R_from_alias) f5).
  { pose proof R3 as K. apply gap_inv in K; [|exact V2]. destruct K as (w & _ & _ & Hc & _). apply comments_not; [exact Hc|discriminate]. }
  assert (N4 : Forall (fun t => t_rule t <> R_from_alias) f7).
  { pose proof R4 as K. apply token_inv in K; [|discriminate]. destruct K as (fi & _ & ->). constructor; [discriminate|constructor]. }
  pose proof R5 as R6. apply opt_inv in R6; [|reflexivity]. destruct R6 as [R6|(_ & -> & -> & ->)].
  2: { left. eexists. split; [reflexivity|]. repeat (apply Forall_app; split); auto. }
  right. call_open R6. cbn [grammar fst snd rule_inner rule_outer rule_tokens] in *. change (rule_outer Silent ctx0) with ctx0 in R6.
  apply seq_inv in R6; [|reflexivity]. destruct R6 as (p5 & s5 & g5 & g6 & S1 & R6 & ->).
  apply seq_inv in R6; [|reflexivity]. destruct R6 as (p6 & s6 & g7 & g8 & S2 & R6 & ->).
  apply seq_inv in R6; [|reflexivity]. destruct R6 as (p7 & s7 & g9 & g10 & S3 & R6 & ->).
  pose proof (run_valid _ _ _ _ _ _ _ S1 V4 eq_refl) as V5.
  pose proof (run_valid _ _ _ _ _ _ _ S2 V5 eq_refl) as V6.
  pose proof (run_valid _ _ _ _ _ _ _ S3 V6 eq_refl) as V7.
  pose proof (run_valid _ _ _ _ _ _ _ R6 V7 eq_refl) as V8.
  pose proof (run_strict _ _ _ _ _ _ _ R6 eq_refl) as L6.
  apply token_inv in R6; [|discriminate]. destruct R6 as (fa & R6 & ->).
  cbn [grammar fst snd rule_inner] in R6. change (rule_outer Normal ctx0) with ctx0 in R6. call_open R6.
  cbn [grammar fst snd rule_inner rule_tokens] in *.
  apply (class_rep1_inv _ alias_char) in R6; [|reflexivity|apply class_alias].
  destruct R6 as (al & -> & -> & Hne & Ha & -> & Hx).
  destruct (run_consumes _ _ _ _ _ _ _ R2) as (w2 & -> & ->).
  destruct (run_consumes _ _ _ _ _ _ _ R3) as (w3 & -> & ->).
  destruct (run_consumes _ _ _ _ _ _ _ R4) as (w4 & -> & ->).
  destruct (run_consumes _ _ _ _ _ _ _ S1) as (w5 & -> & ->).
  destruct (run_consumes _ _ _ _ _ _ _ S2) as (w6 & -> & ->).
  assert (Hg : exists w, s6 = w ++ al ++ s' /\ p7 = p + length kw + length w2 + length w3 + length w4 + length w5 + length w6 + length w /\ w <> [] /\ exists k, gap k w).
  { pose proof S3 as K. apply gap_inv_more in K; [|exact V6|destruct al; [congruence|discriminate]].
    destruct K as (w & E1 & E2 & _ & Hne' & Hg). exists w. split; [exact E1|]. split; [exact E2|]. eauto. }
  destruct Hg as (w7 & -> & -> & Hne7 & k & Hg).
  exists (kw ++ w2 ++ w3 ++ w4 ++ w5 ++ w6 ++ w7), al, (f3 ++ f5 ++ f7 ++ g5 ++ g7 ++ g9).
  assert (Lk : p + length (kw ++ w2 ++ w3 ++ w4 ++ w5 ++ w6 ++ w7) = p + length kw + length w2 + length w3 + length w4 + length w5 + length w6 + length w7) by (rewrite !app_length; lia).
  assert (Ef : f3 ++ f5 ++ f7 ++ g5 ++ g7 ++ g9 ++ [Node R_from_alias (p + length kw + length w2 + length w3 + length w4 + length w5 + length w6 + length w7) (p + length kw + length w2 + length w3 + length w4 + length w5 + length w6 + length w7 + length al) []] =
    (f3 ++ f5 ++ f7 ++ g5 ++ g7 ++ g9) ++ [Node R_from_alias (p + length (kw ++ w2 ++ w3 ++ w4 ++ w5 ++ w6 ++ w7)) (p + length (kw ++ w2 ++ w3 ++ w4 ++ w5 ++ w6 ++ w7) + length al) []]).
  { rewrite Lk. rewrite <- !app_assoc. reflexivity. }
  rewrite Ef in Ho |- *. destruct (ordered_split _ _ _ _ _ Ho) as (O1 & O2 & O3). cbn [t_start t_stop] in O1, O3.
  split; [rewrite <- !app_assoc; reflexivity|]. split; [split; assumption|].
  split. { apply (valid_utf8_app_l _ (al ++ s')); [rewrite <- !app_assoc; exact Hv|exact V7]. }
  split; [exact V8|]. split.
  { destruct (keyword_head kw (w2 ++ w3 ++ w4 ++ w5 ++ w6) Hkw) as (c & t & Ec & Hc). destruct (gap_ends _ _ Hg) as [->|(a & z & Ea & Hz)]; [congruence|].
    exists c, (t ++ a), z. split; [|split; assumption].
    replace (kw ++ w2 ++ w3 ++ w4 ++ w5 ++ w6 ++ w7) with ((kw ++ w2 ++ w3 ++ w4 ++ w5 ++ w6) ++ w7) by (rewrite <- !app_assoc; reflexivity).
    rewrite Ec, Ea. cbn [app]. rewrite <- app_assoc. reflexivity. }
  split. { intros P ->. do 19 eexists. split; [rewrite <- !app_assoc; exact R1|]. split; [exact R2|]. split; [exact R3|]. split; [exact R4|].
    split; [exact S1|]. split; [exact S2|]. unfold before. rewrite app_length, Lk. exact S3. }
  split; [reflexivity|]. split; [exact O1|]. rewrite Lk. reflexivity.
Qed.

(** ** The alias of the instruction *)

Section Alias.
Variable unq : bytes -> option bytes.

Lemma loop_no_alias s l : Forall (fun t => t_rule t <> R_from_alias) l -> forall i a fl i' a' fl',
  for_each (from_loop unq s) l (i, a, fl) = Ok (i', a', fl') -> a' = a.
Proof.
  induction 1 as [|t l Ht Hl IH]; intros i a fl i' a' fl' H; cbn [for_each] in H; [congruence|].
  unfold from_loop in H at 1. destruct (t_rule t); try discriminate; try contradiction; cbn [bind] in H; try (apply IH in H; exact H).
  destruct (from_flag_of unq s t); try discriminate. cbn [bind] in H. apply IH in H. exact H.
Qed.

Lemma from_of_alias src r p q l n f : from_of unq src (Node r p q l) n = Ok f ->
  exists i a fl, for_each (from_loop unq src) l (None, None, []) = Ok (i, a, fl) /\
    match a with
    | Some t => exists x, parse_string unq src t = Ok x /\ from_alias f = Some x
    | None => from_alias f = None
    end.
Proof.
  intros H.
  change (('(image_field, alias_field, flags) <- for_each (from_loop unq src) l (None, None, []);;
    image <- match image_field with Some f => parse_string unq src f | None => generic "missing from image" end;;
    let image_parsed := image_parse (ss_content image) in
    _ <- match i_hash image_parsed with
         | Some hash => if digest_ok hash then Ok tt else generic "image reference digest is invalid"
         | None => Ok tt
         end;;
    alias <- match alias_field with Some f => x <- parse_string unq src f;; Ok (Some x) | None => Ok None end;;
    Ok (FromInstruction (Span p q) flags image image_parsed n alias)) = Ok f) in H.
  destruct (for_each (from_loop unq src) l (None, None, [])) as [[[i a] fl]|e| |]; try discriminate.
  cbn [bind] in *. exists i, a, fl. split; [reflexivity|].
  destruct (match i with Some f => _ | None => _ end) as [im|e| |]; try discriminate. cbn [bind] in H.
  destruct (match i_hash _ with Some hash => _ | None => _ end); try discriminate. cbn [bind] in H.
  destruct a as [t|].
  - destruct (parse_string unq src t) as [x|e| |]; try discriminate. cbn [bind] in H. injection H as <-. exists x. split; reflexivity.
  - cbn [bind] in H. injection H as <-. reflexivity.
Qed.

Lemma from_no_alias src r p q l n f : Forall (fun t => t_rule t <> R_from_alias) l -> from_of unq src (Node r p q l) n = Ok f ->
  from_alias f = None.
Proof.
  intros N H. destruct (from_of_alias _ _ _ _ _ _ _ H) as (i & a & fl & E & K). apply (loop_no_alias _ _ N) in E. subst a. exact K.
Qed.

Lemma from_alias_of src r p q c1 al n f : t_rule al = R_from_alias -> starts_quoted (as_str src al) = false ->
  from_of unq src (Node r p q (c1 ++ [al])) n = Ok f -> from_alias f = Some (SpannedString (span_of al) (as_str src al)).
Proof.
  intros Hr Hq H. destruct (from_of_alias _ _ _ _ _ _ _ H) as (i & a & fl & E & K). rewrite for_each_app in E.
  destruct (for_each (from_loop unq src) c1 (None, None, [])) as [[[i1 a1] fl1]|e| |]; try discriminate. cbn [bind for_each] in E.
  unfold from_loop in E at 1. rewrite Hr in E. cbn [bind] in E. injection E as <- <- <-.
  destruct K as (x & E & K). unfold parse_string in E. rewrite Hq in E. injection E as <-. exact K.
Qed.

Lemma within_clear_before a b p q t : q <= a -> tree_within p q t -> EqSwap.clear_of a b t.
Proof.
  revert p q. induction t as [r x y l IH] using tree_induction. intros p q Hp H. apply tree_within_node in H.
  destruct H as (H1 & H2 & H3 & H4). constructor; [lia|lia|]. rewrite Forall_forall in *. intros t Ht.
  apply (IH t Ht x y); [lia|apply H4; exact Ht].
Qed.

(** No other string stands around the alias. *)
Lemma alias_only input d l1 f l2 al : valid_utf8 input = true -> parse unq input = Ok d -> d_instructions d = l1 ++ IFrom f :: l2 ->
  from_alias f = Some al -> s_start (ss_span al) < s_end (ss_span al) ->
  (forall j sp, In j (d_instructions d) -> In sp (quotable_places j) -> around (s_start (ss_span al)) (s_end (ss_span al)) sp = true ->
    sp = ss_span al) /\
  (forall x, In (IFrom x) (d_instructions d) -> around (s_start (ss_span al)) (s_end (ss_span al)) (ss_span (from_image x)) = false).
Proof.
  intros V E El Hal L. destruct (selection_spans unq input d _ V E (places_selected (d_instructions d))) as [Ho _].
  set (L1 := flat_map quotable_places l1 ++ flat_map flag_places (from_flags f) ++ [ss_span (from_image f)]).
  set (L2 := flat_map quotable_places l2).
  assert (EL : flat_map quotable_places (d_instructions d) = L1 ++ [ss_span al] ++ L2).
  { rewrite El, flat_map_app. cbn [flat_map quotable_places]. rewrite Hal. cbn [option_places]. unfold L1, L2.
    rewrite <- !app_assoc. reflexivity. }
  rewrite EL in Ho.
  assert (H1 : forall sp, In sp L1 -> s_end sp <= s_start (ss_span al)).
  { apply in_order_app in Ho. destruct Ho as [_ Ho]. intros sp. apply Ho. left. reflexivity. }
  assert (H2 : forall sp, In sp L2 -> s_end (ss_span al) <= s_start sp).
  { rewrite app_assoc in Ho. apply in_order_app in Ho. destruct Ho as [_ Ho]. intros sp Hsp. apply (Ho sp Hsp).
    apply in_or_app. right. left. reflexivity. }
  assert (Away : forall sp, In sp L1 \/ In sp L2 -> around (s_start (ss_span al)) (s_end (ss_span al)) sp = false).
  { intros sp Hsp. unfold around. destruct (Nat.leb_spec (s_start sp) (s_start (ss_span al))); [|reflexivity].
    destruct (Nat.leb_spec (s_end (ss_span al)) (s_end sp)); [|reflexivity]. exfalso.
    destruct Hsp as [K|K]; [specialize (H1 _ K)|specialize (H2 _ K)]; lia. }
  split.
  - intros j sp Hj Hsp Ha. assert (K : In sp (flat_map quotable_places (d_instructions d))) by (apply in_flat_map; eauto).
    rewrite EL in K. apply in_app_or in K. destruct K as [K|[K|K]]; [|congruence|]; rewrite Away in Ha by auto; discriminate.
  - intros x Hx. apply Away. rewrite El in Hx. apply in_app_or in Hx. destruct Hx as [Hx|[Hx|Hx]].
    + left. apply in_or_app. left. apply in_flat_map. exists (IFrom x). split; [exact Hx|]. apply in_or_app. right. left. reflexivity.
    + injection Hx as <-. left. apply in_or_app. right. apply in_or_app. right. left. reflexivity.
    + right. apply in_flat_map. exists (IFrom x). split; [exact Hx|]. apply in_or_app. right. left. reflexivity.
Qed.

(** ** The document with another alias *)

Theorem parse_alias input d l1 f l2 al : valid_utf8 input = true -> parse unq input = Ok d -> d_instructions d = l1 ++ IFrom f :: l2 ->
  from_alias f = Some al ->
  exists pre post, input = pre ++ ss_content al ++ post /\ alias_text (ss_content al) /\ valid_utf8 pre = true /\ valid_utf8 post = true /\
    ss_span al = Span (length pre) (length pre + length (ss_content al)) /\
    forall new, alias_text new ->
      valid_utf8 (pre ++ new ++ post) = true /\
      parse unq (pre ++ new ++ post) =
        Ok (reword_dockerfile (length pre) (length pre + length (ss_content al)) new (pre ++ new ++ post) d).
Proof.
  intros Hv H El Hal. pose proof H as H0. unfold parse in H. rewrite pest_parse_run in H.
  destruct (run ctx0 (Call R_dockerfile) 0 input) as [q s' fs| |] eqn:R; try discriminate.
  pose proof R as R0. apply call_inv in R0. destruct R0 as (f' & R0 & Ef).
  cbn [grammar fst snd rule_inner rule_tokens wrap emits ctx0 look atom] in Ef. subst fs.
  cbn [grammar fst snd rule_inner] in R0. change (rule_outer Normal ctx0) with ctx0 in R0.
  pose proof (run_ordered _ _ _ _ _ _ _ R0) as Ho. pose proof (run_consumes _ _ _ _ _ _ _ R) as Hq.
  assert (s' = []) as ->.
  { apply seq_inv in R0; [|reflexivity]. destruct R0 as (p1 & s1 & f1 & f2 & _ & R0 & _).
    apply seq_inv in R0; [|reflexivity]. destruct R0 as (p2 & s2 & f3 & f4 & _ & R0 & _).
    apply seq_inv in R0; [|reflexivity]. destruct R0 as (p3 & s3 & f5 & f6 & _ & R0 & _).
    apply call_inv in R0. destruct R0 as (fe & R0 & _). cbn [grammar fst snd] in R0. rewrite run_eoi in R0.
    destruct s3; [congruence|discriminate]. }
  assert (q = length input) as -> by (destruct Hq as (w & -> & ->); rewrite app_nil_r; reflexivity).
  clear R0 Hq. change (wrap (rule_outer Normal ctx0) R_dockerfile 0 (length input) f') with [Node R_dockerfile 0 (length input) f'] in *. cbn [t_children] in H.
  destruct (for_each (doc_step unq input) f' (DocState [] [] false 0)) as [st|e| |] eqn:Est; try discriminate.
  cbn [bind] in H. injection H as Ed. rewrite <- Ed in El. cbn [d_instructions] in El.
  destruct (doc_steps_find _ _ _ _ _ l1 (IFrom f) l2 Est El) as (fa & t & fb & sta & stb & -> & E1 & E2 & E3 & E4 & E5).
  cbn [ds_instructions app] in E2.
  destruct (doc_step_adds _ _ _ _ _ E3) as [K|(i & Ei & Hi)].
  { exfalso. rewrite K in E4. apply (f_equal (@length _)) in E4. rewrite app_length in E4. cbn [length] in E4. lia. }
  rewrite Ei in E4. apply app_inv_head in E4. injection E4 as ->. destruct Hi as (f0 & Hr & Hf & Ef0 & Estb).
  assert (Hal0 : from_alias f0 = Some al) by (rewrite Ef0 in Hal; exact Hal).
  assert (Hin : In t (fa ++ t :: fb)) by (apply in_or_app; right; left; reflexivity).
  destruct (document_token _ _ _ _ Hv R Hin Hr) as (P & U & w & s & q1 & s2 & EI & EP & Hw & HU & RF & Hs2).
  assert (VP : valid_utf8 P = true /\ valid_utf8 s = true).
  { assert (Hc : exists c t0, s = c :: t0 /\ (c < 128)%N).
    { apply token_inv in RF; [|discriminate]. destruct RF as (l & RF & _).
      cbn [grammar fst snd rule_inner] in RF. apply seq_inv in RF; [|reflexivity]. destruct RF as (p0 & x0 & f1 & f2 & RF & _ & _).
      apply (keyword_inv "from") in RF; [|reflexivity]. destruct RF as (kw & -> & _ & Hkw & _).
      destruct (keyword_head kw x0 Hkw) as (c & t0 & -> & Hc). exists c, t0. split; [reflexivity|].
      unfold lower_byte in Hc. destruct (is_upper c) eqn:Eu; [|lia]. unfold is_upper in Eu. lia. }
    destruct Hc as (c & s0 & -> & Hc). apply (valid_utf8_cut _ Hv P (c :: s0) EI).
    unfold is_cont, in_range. destruct (N.leb_spec 128 c); [lia|reflexivity]. }
  destruct VP as [VP Vs].
  destruct (alias_tokens _ _ _ _ _ Vs RF) as [(c & Et & Nc)|(K & X & c1 & -> & HX & VK & VB & HK & Hhead & Et & W1 & Lq)].
  { exfalso. injection Et as ->. rewrite (from_no_alias _ _ _ _ _ _ _ Nc Hf) in Hal0. discriminate. }
  injection Et as ->. cbn [t_rule t_start t_stop] in *.
  pose proof (alias_image _ HX) as HXi.
  assert (EX : as_str input (Node R_from_alias (length P + length K) (length P + length K + length X) []) = X).
  { rewrite EI. unfold as_str. cbn [t_start t_stop]. rewrite <- app_length. rewrite (app_assoc P K). apply slice_app. }
  pose proof (from_alias_of _ _ _ _ _ (Node R_from_alias (length P + length K) (length P + length K + length X) []) _ _ eq_refl
    (eq_trans (f_equal _ EX) (image_unquoted _ HXi)) Hf) as Ea.
  rewrite EX, Hal0 in Ea. injection Ea as ->. cbn [ss_content ss_span span_of t_start t_stop] in *.
  exists (P ++ K), s2. rewrite <- !app_assoc. split; [exact EI|]. split; [exact HX|].
  split; [rewrite valid_utf8_app by exact VP; exact VK|]. split; [exact VB|]. split; [rewrite app_length; reflexivity|].
  intros new Hnew. rewrite <- !app_assoc. pose proof (alias_image _ Hnew) as Hni.
  assert (HB : match s2 with c :: _ => image_char c = false /\ c <> EQUALS | [] => True end).
  { destruct s2 as [|c B']; [exact I|]. destruct (Swap.break_cases _ Hs2) as [->|[->|[->| ->]]]; split; (reflexivity || discriminate). }
  split.
  { rewrite valid_utf8_app by exact VP. rewrite valid_utf8_app by exact VK.
    rewrite valid_utf8_ascii_app by (apply image_text_ascii; exact Hni). exact VB. }
  assert (Rn : run ctx0 (Call R_dockerfile) 0 (before P K ++ new ++ s2) =
    Done (moved P K X new (length input)) [] [Node R_dockerfile 0 (moved P K X new (length input)) (map (move_tree (moved P K X new)) (fa ++ Node R_from (length P) q1 (c1 ++ [Node R_from_alias (length P + length K) (length P + length K + length X) []]) :: fb))]).
  { eapply (swapped_alias P K X new s2 HXi Hni VB HB HK); [exists U, w; auto|exact VP|exact VK|exact HX|exact Hnew|apply Hhead; reflexivity| | |exact Hin|].
    - reflexivity.
    - discriminate.
    - unfold before. rewrite <- app_assoc, <- EI. exact R. }
  unfold before in Rn. rewrite <- app_assoc in Rn.
  assert (Egm : moved P K X new = replacement (length (P ++ K)) (length (P ++ K) + length X) (length new)) by reflexivity.
  rewrite Egm in Rn. apply ordered_split in Ho. destruct Ho as (Wa & Wt & Wb). cbn [t_start t_stop] in *.
  pose proof (length_pos X (proj1 HX)) as LX.
  assert (LI : length input = length P + length K + length X + length s2) by (rewrite EI, !app_length; lia).
  eapply parse_reword with (src := input) (q := length input) (q' := replacement (length (P ++ K)) (length (P ++ K) + length X) (length new) (length input)).
  - rewrite EI, (app_assoc P K (X ++ s2)), (app_assoc P K (new ++ s2)). apply worded_texts. apply HX.
  - split; [apply Hnew|apply image_unquoted; exact Hni].
  - exact Hv.
  - exact R.
  - rewrite Rn. reflexivity.
  - constructor; [|constructor]. rewrite app_length. constructor; [lia|lia|]. apply Forall_app. split; [|constructor].
    + eapply Forall_impl; [|exact Wa]. intros u Hu. eapply within_clear_before; [|exact Hu]. lia.
    + constructor; [lia|lia|]. apply Forall_app. split; [|constructor; [|constructor]].
      * eapply Forall_impl; [|exact W1]. intros u Hu. eapply within_clear_before; [|exact Hu]. lia.
      * constructor; [lia|lia|constructor].
    + eapply Forall_impl; [|exact Wb]. intros u Hu. eapply EqSwap.within_clear; [|exact Hu]. lia.
  - exact H0.
  - assert (Hid : d_instructions d = l1 ++ IFrom f :: l2) by (rewrite <- Ed; exact El).
    destruct (alias_only input d l1 f l2 _ Hv H0 Hid Hal) as [K1 K2]; [cbn; lia|]. cbn [ss_span s_start s_end span_of t_start t_stop] in K1, K2.
    rewrite app_length. apply Forall_forall. intros j Hj. apply places_fit.
    + intros sp Hsp Ha. rewrite (K1 j sp Hj Hsp Ha). unfold text_at. cbn [ss_span span_of t_start t_stop s_start s_end].
      unfold as_str in EX. cbn [t_start t_stop] in EX. rewrite EX. intros Hb. apply (Sound.starts_quoted_spec (fun _ => None) []) in Hb.
      rewrite (image_unquoted _ HXi) in Hb. discriminate.
    + intros x ->. apply K2. exact Hj.
Qed.

(** The same, with the instructions moved instead of reworded *)
Theorem parse_alias_moved input d l1 f l2 al : valid_utf8 input = true -> parse unq input = Ok d -> d_instructions d = l1 ++ IFrom f :: l2 ->
  from_alias f = Some al ->
  exists pre post, input = pre ++ ss_content al ++ post /\ alias_text (ss_content al) /\
    ss_span al = Span (length pre) (length pre + length (ss_content al)) /\ on_boundaries input (ss_span al) /\
    forall new, alias_text new ->
    forall g, g = replacement (length pre) (length pre + length (ss_content al)) (length new) ->
      valid_utf8 (pre ++ new ++ post) = true /\
      parse unq (pre ++ new ++ post) = Ok (Dockerfile (pre ++ new ++ post) (map (move_arg g) (d_global_args d))
        (map (move_instruction g) l1 ++ IFrom (with_alias (move_from g f) new) :: map (move_instruction g) l2)).
Proof.
  intros V E El Hal. destruct (parse_alias input d l1 f l2 al V E El Hal) as (pre & post & Ei & Ht & Vp & Vq & Es & K).
  pose proof (length_pos _ (proj1 Ht)) as LX.
  exists pre, post. split; [exact Ei|]. split; [exact Ht|]. split; [exact Es|]. split.
  { rewrite Es, Ei. pose proof V as V2. rewrite Ei, valid_utf8_app in V2 by exact Vp. split; cbn [s_start s_end].
    - apply boundary_of_app. exact V2.
    - pose proof (boundary_of_app (pre ++ ss_content al) post Vq) as B. rewrite app_length, <- app_assoc in B. exact B. }
  intros new Hn g ->. destruct (K new Hn) as [Vn En]. split; [exact Vn|]. rewrite En. f_equal. unfold reword_dockerfile.
  set (lo := length pre) in *. set (hi := lo + length (ss_content al)) in *. set (g := replacement lo hi (length new)).
  assert (Hi : In (IFrom f) (d_instructions d)) by (rewrite El; apply in_or_app; right; left; reflexivity).
  assert (Or : forall k, In k (d_instructions d) -> ordered (instruction_part k)).
  { intros k Hk z Hz. apply (C05_parts_in_order unq _ d k z V E Hk Hz). }
  assert (Ha : In (string_part al) (parts (IFrom f))).
  { cbn [parts]. rewrite Hal. apply in_or_app. right. right. left. reflexivity. }
  assert (Hw : In (string_part al) (within (instruction_part (IFrom f)))).
  { apply (within_sub _ (string_part al)); [exact Ha|apply within_self]. }
  pose proof (within_inside _ (Or _ Hi) _ Hw) as Ins. cbn [string_part part_span instruction_part] in Ins. rewrite Es in Ins. unfold inside in Ins. cbn [s_start s_end] in Ins.
  assert (Out : forall j y, In j l1 \/ In j l2 -> In y (within (instruction_part j)) -> around lo hi (part_span y) = false).
  { intros j y Hj Hy. assert (Hjd : In j (d_instructions d)) by (rewrite El; apply in_or_app; destruct Hj; [left|right; right]; assumption).
    pose proof (within_inside _ (Or j Hjd) y Hy) as I1. cbn [instruction_part part_span] in I1.
    pose proof (C06_instructions_in_order unq input d V E) as Oi. rewrite El, map_app in Oi. cbn [map] in Oi.
    assert (D : disjoint (instruction_span j) (instruction_span (IFrom f))).
    { destruct Hj as [Hj|Hj].
      - apply in_order_app in Oi. destruct Oi as [_ Oi]. left. apply Oi; [left; reflexivity|apply in_map; exact Hj].
      - change (instruction_span (IFrom f) :: map instruction_span l2) with ([instruction_span (IFrom f)] ++ map instruction_span l2) in Oi.
        rewrite app_assoc in Oi. apply in_order_app in Oi. destruct Oi as [_ Oi]. right.
        apply Oi; [apply in_map; exact Hj|apply in_or_app; right; left; reflexivity]. }
    unfold around. destruct (Nat.leb_spec (s_start (part_span y)) lo); [|reflexivity].
    destruct (Nat.leb_spec hi (s_end (part_span y))); [|reflexivity]. unfold disjoint, inside, hi in *. lia. }
  (* The parts of the instruction before the alias *)
  assert (Bef : forall y, In y (map flag_part (from_flags f)) \/ y = string_part (from_image f) ->
    forall z, In z (within y) -> around lo hi (part_span z) = false).
  { intros y Hy z Hz. pose proof (Or _ Hi _ (within_self _)) as O1. cbn [instruction_part part_span part_sub parts] in O1. rewrite Hal in O1. cbn [maybe] in O1.
    change (map flag_part (from_flags f) ++ [string_part (from_image f)] ++ [string_part al]) with
      (map flag_part (from_flags f) ++ [string_part (from_image f); string_part al]) in O1.
    assert (E2 : map part_span (map flag_part (from_flags f) ++ [string_part (from_image f); string_part al]) =
      map part_span (map flag_part (from_flags f) ++ [string_part (from_image f)]) ++ [ss_span al]) by (rewrite !map_app; cbn [map]; rewrite <- app_assoc; reflexivity).
    assert (Hy2 : In y (map flag_part (from_flags f) ++ [string_part (from_image f)])).
    { apply in_or_app. destruct Hy as [Hy| ->]; [left; exact Hy|right; left; reflexivity]. }
    assert (Hyi : In y (part_sub (instruction_part (IFrom f)))).
    { cbn [instruction_part part_sub parts]. apply in_app_or in Hy2. apply in_or_app. destruct Hy2 as [Hy2|[<-|[]]]; [left; exact Hy2|right; left; reflexivity]. }
    pose proof (within_inside _ (ordered_sub _ _ (Or _ Hi) Hyi) z Hz) as I1.
    match type of O1 with in_order _ _ ?l => replace l with (map part_span (map flag_part (from_flags f) ++ [string_part (from_image f)]) ++ [ss_span al]) in O1 end.
    apply in_order_app in O1. destruct O1 as [_ O1]. specialize (O1 (ss_span al) (or_introl eq_refl) (part_span y) (in_map _ _ _ Hy2)).
    rewrite Es in O1. cbn [s_start] in O1. unfold around. destruct (Nat.leb_spec (s_start (part_span z)) lo); [|reflexivity].
    destruct (Nat.leb_spec hi (s_end (part_span z))); [|reflexivity]. unfold inside, hi in *. lia. }
  f_equal.
  - apply map_ext_in. intros x Hx. apply away_arg. intros y Hy.
    destruct (C09_global_args unq input d E) as (u & (v & Ep & _) & Eg). rewrite Eg in Hx.
    assert (Hxd : In (IArg x) (d_instructions d)).
    { rewrite Ep. apply in_or_app. left. apply in_flat_map in Hx. destruct Hx as (j & Hj & Hx).
      destruct j; try destruct Hx as [->|[]]; try destruct Hx; exact Hj. }
    rewrite El in Hxd. apply in_app_or in Hxd.
    apply (Out (IArg x)); [|exact Hy]. destruct Hxd as [K'|[K'|K']]; [left; exact K'|discriminate|right; exact K'].
  - rewrite El, map_app. cbn [map].
    f_equal; [|f_equal]; try (apply map_ext_in; intros j Hj; apply away_instruction; intros y Hy; apply (Out j); auto).
    cbn [reword_instruction]. f_equal. unfold reword_from, with_alias, move_from. cbn [from_span from_flags from_image from_image_parsed from_index from_alias].
    rewrite Hal. cbn [option_map]. f_equal.
    + apply map_ext_in. intros x Hx. apply away_flag. intros z Hz. apply (Bef (flag_part x)); [left; apply in_map; exact Hx|exact Hz].
    + apply away_string. intros z Hz. apply (Bef (string_part (from_image f))); [right; reflexivity|exact Hz].
    + f_equal. unfold reword_string. cbn [move_string ss_span]. f_equal. rewrite Es. unfold reword_text, around. cbn [s_start s_end].
      rewrite !Nat.leb_refl. cbn [andb]. rewrite Nat.sub_diag. cbn [firstn app]. rewrite skipn_all2 by (unfold hi; lia). apply app_nil_r.
Qed.

End Alias.
